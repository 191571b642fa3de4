(** * check mode: sanity checks (no proofs in this file).

    Models cmd/check.go:60-308. Floats (float32 and float64) are reals (RealBase.v). Reading of the config file: ConfigModel.v. *)
From Verif Require Export LosModel.
From Verif Require Import GoBase.
From Coq Require Import ZArith Reals List.
Import List ListNotations.
Local Open Scope R_scope.

(** check.go:16-22 *)
Record CheckConf := mkCheckConf { kc_h0 : R; kc_omegaM : R; kc_omegaL : R; kc_boxWidth : R; kc_masses : list R; kc_count : Z; kc_halo : list R }.

(** The fields of io.Header that are compared (io.go:71-89). *)
Record CheckHeader := mkCheckHeader { kh_h100 : R; kh_omegaM : R; kh_omegaL : R; kh_totalWidth : R }.

(** The messages of failed tests (the numbers in them are left out). *)
Inductive failure := FH0 | FOmegaM | FOmegaL | FBoxWidth | FMasses | FCount | FHalo.

(** check.go:127-130 *)
Definition check_almost_eq (x y : R) : bool := Rltb (Rabs (x - y)) (y / 10).

(** check.go:132-168 *)
Definition header_check (set read : R) (msg : failure) (failed : list failure) : list failure :=
  if Rltb 0 set && negb (check_almost_eq set read) then failed ++ [msg] else failed.
Definition header_checks (hd : CheckHeader) (c : CheckConf) (failed : list failure) : list failure :=
  let failed := header_check (kc_h0 c) (kh_h100 hd * 100) FH0 failed in
  let failed := header_check (kc_omegaM c) (kh_omegaM hd) FOmegaM failed in
  let failed := header_check (kc_omegaL c) (kh_omegaL hd) FOmegaL failed in
  header_check (kc_boxWidth c) (kh_totalWidth hd) FBoxWidth failed.

(** check.go:182-194: failureMass after the loop. *)
Fixpoint failure_mass (allowed ms : list R) : R :=
  match ms with
  | [] => -1
  | m :: ms' =>
      if fold_left (fun found mm => found || check_almost_eq m mm) allowed false then failure_mass allowed ms' else m
  end.

(** check.go:170-222. read is buf.Read(fname) (the masses), total is buf.TotalParticles(fname); [None] is an error. *)
Definition particle_checks (read : option (list R)) (total : option Z) (c : CheckConf) (failed : list failure) : option (list failure) :=
  do failed <-
    match kc_masses c with
    | [] => Some failed
    | _ => do ms <- read; Some (if Req_EM_T (failure_mass (kc_masses c) ms) (-1) then failed else failed ++ [FMasses])
    end;
  if (kc_count c >? 0)%Z then
    do n <- total; Some (if (n =? kc_count c)%Z then failed else failed ++ [FCount])
  else Some failed.

(** check.go:284-308. ms[i] is read for every particle here. *)
Definition add_mass (c : vec) (r tw : R) (xs : list vec) (ms : list R) : option R :=
  let rMax2 := r * r in let tw2 := tw / 2 in let '(x0, y0, z0) := c in
  loop (List.length xs) (fun i m =>
    do v <- rd xs i; do mi <- rd ms i;
    let '(x, y, z) := v in
    let dx := wrap (x - x0) tw2 in let dy := wrap (y - y0) tw2 in let dz := wrap (z - z0) tw2 in
    Some (if Rleb (dx * dx + dy * dy + dz * dz) rMax2 then m + mi else m)) 0.

(** check.go:224-282. read snap is memo.ReadHeaders and buf.Read; hds[0] panics without files (also [None]). *)
Definition halo_checks (read : Z -> option (list PFile)) (c : CheckConf) (failed : list failure) : option (list failure) :=
  match kc_halo c with
  | [] => Some failed
  | s :: hx :: hy :: hz :: hr :: hm :: _ =>
      do files <- read (Rtrunc s);
      match files with
      | [] => None
      | _ =>
        do mass <- fold_left (fun o f =>
          do mass <- o;
          if sheet_intersect (hx, hy, hz) hr (f_origin f) (f_width f) (f_tw f)
          then do m <- add_mass (hx, hy, hz) hr (f_tw f) (f_xs f) (f_ms f); Some (mass + m) else Some mass) files (Some 0);
        Some (if check_almost_eq hm mass then failed else failed ++ [FHalo])
      end
  | _ => None
  end.

(** check.go:90-125: the failed tests; the run ends with status 1 exactly if there are any. snapMax is HSnapMax, hd the header and total the particle
    count of its first file. *)
Definition check_run (c : CheckConf) (hd : CheckHeader) (total : option Z) (read : Z -> option (list PFile)) (snapMax : Z) : option (list failure) :=
  do files <- read snapMax;
  match files with
  | [] => None
  | f :: _ =>
      let failed := header_checks hd c [] in
      do failed <- particle_checks (Some (f_ms f)) total c failed;
      halo_checks read c failed
  end.

(** check.go:80-85: the part of ReadConfig after parsing. *)
Definition check_config_ok (c : CheckConf) : bool := Nat.eqb (List.length (kc_halo c)) 0 || Nat.eqb (List.length (kc_halo c)) 6.

(** TotalParticles of the snapshot types that do not count particles: io/gotetra.go:253-255, io/artio.go:303-305 (-1), io/bolshoi.go:250-252 and
    io/bolshoiP.go:227-229 (2048 cubed). *)
Definition gotetra_total : option Z := Some (-1)%Z.
Definition artio_total : option Z := Some (-1)%Z.
Definition bolshoi_total : option Z := Some (2048 * 2048 * 2048)%Z.
