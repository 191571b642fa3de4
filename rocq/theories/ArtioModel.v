(** * ARTIO snapshots (no proofs in this file).

    Models io/artio.go on top of a contract for the library go-artio, which is not part of the repository: a fileset has a header with typed fields and, for every
    range of cells of the space filling curve, the number and the positions of the particles of every species. float32 and float64 are reals. *)
From Verif Require Export BoxModel.
From Verif Require CmdModel.
From Coq Require Import Reals List ZArith.
Import List ListNotations.
Local Open Scope R_scope.

(** The fields of a fileset that are used. [fs_particles]: OpenParticles succeeds. [fs_count] is CountInRange ([None]: it returns an error, with no counts);
    [fs_pos] is GetPositionsAt for a buffer of exactly as many vectors as there are particles. *)
Record fileset := {
  fs_labels : list bytes; fs_species : nat; fs_masses : list R; fs_sfc : list Z; fs_hubble : option R; fs_mass_unit : R; fs_length_unit : R; fs_box : R;
  fs_auni : option R; fs_omegaM : option R; fs_omegaL : option R;
  fs_particles : bool; fs_count : Z -> Z -> option (list nat); fs_pos : nat -> Z -> Z -> option (list vec) }.

(** artio.go:82-99 parseARTIOFilename. *)
Definition last_dot (s : bytes) : option nat := option_map (fun i => List.length s - 1 - i)%nat (index_byte "."%char (rev s)).
Definition parse_artio (fname : bytes) : option (bytes * Z) :=
  match last_dot fname with
  | None => None
  | Some split => if Nat.eqb split (List.length fname - 1) then None
                  else match atoi (trim "p"%char (skipn (S split) fname)) with Some block => Some (firstn split fname, block) | None => None end
  end.

(** artio.go:196-208 nBodyFlags: nBodyCount counts every label. *)
Definition nbody_flags (h : fileset) : option (list bool) :=
  match fs_labels h with [] => None | _ => Some (map (fun l => beq l (lit "N-BODY")) (fs_labels h)) end.

(** artio.go:22-32 *)
Record artio_buf := { ab_open : bool; ab_xs : list (list vec); ab_ms : list (list R); ab_masses : list R; ab_flags : list bool; ab_fileset : bytes }.

Section Disk.
(** FilesetOpen: the filesets that exist. *)
Variable disk : bytes -> option fileset.

(** artio.go:50-60, 173-183, 234-244. *)
Definition h100_of (h : fileset) : R := match fs_hubble h with Some x => x | None => 7 / 10 end.

(** artio.go:34-80 NewARTIOBuffer; None: error. *)
Definition new_artio (fname : bytes) : option artio_buf :=
  match parse_artio fname with
  | None => None
  | Some (set, _) =>
      match disk set with
      | None => None
      | Some h =>
          let massUnit := h100_of h / (CmdModel.MSunMks * 1000) * fs_mass_unit h in
          match nbody_flags h with
          | None => None
          | Some flags => Some {| ab_open := false; ab_xs := repeat [] (fs_species h); ab_ms := repeat [] (fs_species h);
                                  ab_masses := map (fun m => m * massUnit) (fs_masses h); ab_flags := flags; ab_fileset := set |}
          end
      end
  end.

Definition with_open (b : artio_buf) (o : bool) : artio_buf :=
  {| ab_open := o; ab_xs := ab_xs b; ab_ms := ab_ms b; ab_masses := ab_masses b; ab_flags := ab_flags b; ab_fileset := ab_fileset b |}.

(** artio.go:144-158: one species. Panic: an index out of range; Err: GetPositionsAt fails. *)
Definition read_one (h : fileset) (flags : list bool) (masses : list R) (lo hi : Z) (counts : list nat) (st : res (nat * list (list vec) * list (list R))) (i : nat)
  : res (nat * list (list vec) * list (list R)) :=
  bindr st (fun '(tot, xs, ms) =>
    match rd flags i, rd counts i with
    | Some true, Some n =>
        match rd xs i with
        | None => Panic
        | Some _ =>
            match fs_pos h i lo hi with
            | None => Err
            | Some ps => match wr xs i ps, rd ms i, rd masses i with
                         | Some xs', Some _, Some m => match wr ms i (repeat m n) with Some ms' => Ok ((tot + n)%nat, xs', ms') | None => Panic end
                         | Some xs', Some _, None => if Nat.eqb n 0 then match wr ms i [] with Some ms' => Ok (tot, xs', ms') | None => Panic end else Panic
                         | _, _, _ => Panic
                         end
            end
        end
    | Some false, Some _ => Ok (tot, xs, ms)
    | _, _ => Panic
    end).
(** artio.go:142-158: the loop over the species: totCount and the buffers. After an error the model's buffer keeps its previous contents, whereas the code has
    replaced those of the species before the one that failed; the theorems hold for all contents. *)
Definition read_species (h : fileset) (flags : list bool) (masses : list R) (lo hi : Z) (counts : list nat) (xs0 : list (list vec)) (ms0 : list (list R))
  : res (nat * list (list vec) * list (list R)) :=
  fold_left (read_one h flags masses lo hi counts) (seq 0 (List.length counts)) (Ok (0%nat, xs0, ms0)).

(** artio.go:161-170: all buffers one after the other; the output holds tot elements, one more is an index out of range, and elements beyond the last that is
    written keep what the buffer held before ([stale]). *)
Definition gather_out {A} (bufs : list (list A)) (tot : nat) (stale : list A) : option (list A) :=
  let all := concat bufs in
  if (List.length all <=? tot)%nat then Some (all ++ firstn (tot - List.length all) (skipn (List.length all) stale)) else None.

Definition scale (u : R) (v : vec) : vec := let '(x, y, z) := v in (x * u, y * u, z * u).

(** artio.go:101-194 Read: the buffer afterwards, and the positions and masses or an error ([None]); the velocities and ids are nil. Panic: run-time panic.
    The error of CountInRange is overwritten or ignored (141, 148). [sx], [sm]: what xsBuf and msBuf hold before, extended to any length. *)
Definition artio_read (sx : list vec) (sm : list R) (b : artio_buf) (fname : bytes) : res (artio_buf * option (list vec * list R)) :=
  if ab_open b then Panic else
  let b := with_open b true in
  match disk (ab_fileset b) with
  | None => Ok (b, None)
  | Some h =>
      if negb (fs_particles h) then Ok (b, None) else
      match nbody_flags h with
      | None => Ok (b, None)
      | Some flags =>
          match parse_artio fname with
          | None => Ok (b, None)
          | Some (_, fIdx) =>
              match at_ (fs_sfc h) fIdx, at_ (fs_sfc h) (fIdx + 1)%Z with
              | Some sfcStart, Some next =>
                  let sfcEnd := (next - 1)%Z in
                  let counts := match fs_count h sfcStart sfcEnd with Some c => c | None => [] end in
                  match read_species h flags (ab_masses b) sfcStart sfcEnd counts (ab_xs b) (ab_ms b) with
                  | Panic => Panic
                  | Err => Ok (b, None)
                  | Ok (tot, xs, ms) =>
                      match gather_out xs tot sx, gather_out ms tot sm with
                      | Some oxs, Some oms =>
                          let lengthUnit := h100_of h / (CmdModel.MpcMks * 100) * fs_length_unit h in
                          Ok ({| ab_open := true; ab_xs := xs; ab_ms := ms; ab_masses := ab_masses b; ab_flags := ab_flags b; ab_fileset := ab_fileset b |},
                              Some (map (scale lengthUnit) oxs, oms))
                      | _, _ => Panic
                      end
                  end
              | _, _ => Panic
              end
          end
      end
  end.

(** artio.go:210-215 Close. *)
Definition artio_close (b : artio_buf) : res artio_buf := if ab_open b then Ok (with_open b false) else Panic.

(** The fields of io.Header that ReadHeader sets. *)
Record artio_header := { ah_width : R; ah_origin : vec; ah_size : vec; ah_n : nat; ah_z : R; ah_omegaM : R; ah_omegaL : R; ah_h100 : R }.

(** artio.go:221-291 ReadHeader: the buffer afterwards, and the header or an error. The error of Read is overwritten (222, 225). A missing field hubble makes
    GetDouble fail in the library (283), which is Panic here. *)
Definition artio_read_header (sx : list vec) (sm : list R) (b : artio_buf) (fname : bytes) : res (artio_buf * option artio_header) :=
  bindr (artio_read sx sm b fname) (fun '(b, out) =>
  let xs := match out with Some (xs, _) => xs | None => [] end in
  let b := with_open b false in
  match disk (ab_fileset b) with
  | None => Ok (b, None)
  | Some h =>
      let width := fs_box h * (h100_of h / (CmdModel.MpcMks * 100) * fs_length_unit h) in
      if Rltb width (1 / 1000) || Rltb 1000000 width then Ok (b, None) else
      match bounding_box xs width with
      | None => Panic
      | Some (o, w) =>
          match fs_auni h, fs_omegaM h, fs_omegaL h with
          | Some a, Some oM, Some oL =>
              match fs_hubble h with
              | None => Panic
              | Some h100 => if Rltb 10 h100 then Panic else
                  Ok (b, Some {| ah_width := width; ah_origin := o; ah_size := w; ah_n := List.length xs; ah_z := 1 / a - 1; ah_omegaM := oM; ah_omegaL := oL; ah_h100 := h100 |})
              end
          | _, _, _ => Ok (b, None)
          end
      end
  end).

(** artio.go:293-301 MinMass; inner None: +Inf. Outer None: an index out of range. *)
Definition artio_min_mass (b : artio_buf) : option (option R) :=
  fold_left (fun st i =>
    match st, rd (ab_masses b) i, rd (ab_flags b) i with
    | Some acc, Some m, Some f => Some (if f then match acc with None => Some m | Some a => if Rltb m a then Some m else acc end else acc)
    | _, _, _ => None
    end) (seq 0 (List.length (ab_masses b))) (Some None).
End Disk.
