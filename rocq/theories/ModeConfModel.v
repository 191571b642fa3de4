(** * The config variables that each mode registers (no proofs in this file).

    Models the first part of every mode's ReadConfig in cmd/: parse.NewConfigVars and the vars.Int, vars.Float, ... lines, and the pattern
    "no file: flags only; file: file, then flags" (ConfigModel.readMode). Float values are reals. *)
From Verif Require Import GoBase ConfigModel RealBase.
From Coq Require Import ZArith Reals List.
Import List ListNotations.

Inductive mode := MId | MTree | MStats | MProf | MPhase | MPotential | MShell | MCoord | MCheck.

(** A registered variable with its default. *)
Definition reg := (bytes * varType * value R)%type.
Definition rint (s : string) (z : Z) : reg := (lit s, intVar, VInt R z).
Definition rints (s : string) (z : list Z) : reg := (lit s, intsVar, VInts R z).
Definition rfloat (s : string) (x : R) : reg := (lit s, floatVar, VFloat R x).
Definition rfloats (s : string) (x : list R) : reg := (lit s, floatsVar, VFloats R x).
Definition rstring (s t : string) : reg := (lit s, stringVar, VString R (lit t)).
Definition rstrings (s : string) (t : list string) : reg := (lit s, stringsVar, VStrings R (map lit t)).
Definition rbool (s : string) (b : bool) : reg := (lit s, boolVar, VBool R b).

(** The name given to NewConfigVars: id.go:103, tree.go:36, stats.go:108, prof.go:104, phase.go:59, potential.go:47, shell.go:103, coord.go:33, check.go:62. *)
Definition reg_name (m : mode) : bytes :=
  lit (match m with
  | MId => "id.config" | MTree => "tree.config" | MStats => "stats.config" | MProf => "prof.config" | MPhase => "prof.config"
  | MPotential => "prof.config" | MShell => "shell.config" | MCoord => "coord.config" | MCheck => "check.config" end)%string.

(** The registrations in order: id.go:104-113, tree.go:37, stats.go:110-116, prof.go:106-114, phase.go:61-68, potential.go:49-53, shell.go:105-119,
    coord.go:34, check.go:64-70. *)
Definition regs (m : mode) : list reg :=
  (match m with
  | MId => [rstring "IDType" "m200m"; rints "IDs" []; rint "IDStart" (-1); rint "IDEnd" (-1); rint "Mult" 1; rint "Snap" (-1);
      rstring "ExclusionStrategy" "overlap"; rfloat "ExclusionRadiusMult" 1; rfloat "M200mMax" 0; rfloat "M200mMin" 0]
  | MTree => [rints "SelectSnaps" []]
  | MStats => [rstrings "Values" []; rint "MonteCarloSamples" (50 * 1000); rstring "ExclusionStrategy" "none"; rint "Order" 3;
      rstring "ShellParticleFile" ""; rfloat "ShellWidth" 0; rbool "SkipMass" false]
  | MProf => [rint "Bins" 150; rint "Order" 3; rint "Samples" (50 * 1000); rfloat "RMaxMult" 3; rfloat "RMinMult" (3 / 100);
      rint "MedianPixelLevel" 3; rfloat "Percentile" 50; rstring "ProfileType" ""]
  | MPhase => [rint "RBins" 100; rint "VBins" 100; rfloat "RMaxMult" 3; rfloat "VMaxMult" 3; rbool "SubtractHubble" false; rstring "ProfileType" ""]
  | MPotential => [rint "RBins" 64; rfloat "GridRMult" 8; rfloat "RMaxMult" 1; rfloat "RMinMult" 1; rfloat "ParticleFraction" 1]
  | MShell => [rint "SubsampleFactor" 1; rint "RadialBins" 256; rint "Spokes" 256; rint "Rings" 100; rfloat "RMaxMult" 3; rfloat "RMinMult" (3 / 10);
      rfloat "RKernelMult" (2 / 10); rfloat "Eta" 10; rint "Order" 3; rint "Levels" 3; rint "SmoothingWindow" 121; rfloat "LOSSlopeCutoff" 0;
      rfloat "BackgroundRhoMult" (5 / 10); rbool "PercentileProfile" false; rfloat "Percentile" 50]
  | MCoord => [rstrings "Values" ["X"; "Y"; "Z"; "R200m"]]
  | MCheck => [rfloat "H0" (-1); rfloat "OmegaM" (-1); rfloat "OmegaL" (-1); rfloat "BoxWidth" (-1); rfloats "ParticleMasses" []; rint "ParticleCount" (-1);
      rfloats "ExampleHalo" []]
  end)%string.

Definition mode_vars (m : mode) : ConfigVars :=
  {| cv_name := reg_name m; cv_vars := map (fun r => {| rv_name := fst (fst r); rv_type := snd (fst r) |}) (regs m) |}.
Definition mode_defaults (m : mode) : list (value R) := map snd (regs m).

(** The parsing part of ReadConfig of each mode: the outcome and the values of its variables in the order of [regs]: id.go:115-131, tree.go:39-56, stats.go:118-140,
    prof.go:116-134, phase.go:70-81, potential.go:55-63, shell.go:121-139, coord.go:36-45, check.go:72-79. *)
Definition read_mode (parseFloat : bytes -> option R) (toLower : bytes -> bytes) (m : mode) (file : option bytes) (flags : list bytes) : outcome * list (value R) :=
  readMode R parseFloat toLower file flags (mode_vars m) (mode_defaults m).

(** ** The complete ReadConfig of four modes. [None]: an error or a panic. The validation is skipped without file and flags. *)
Definition given (file : option bytes) (flags : list bytes) : bool := match file, flags with None, [] => false | _, _ => true end.
Definition one_name (s : bytes) (l : list string) : bool := existsb (fun t => beq s (lit t)) l.

(** id.go:21-29 *)
Record IDConf := mkIDConf { ic_idType : bytes; ic_ids : list Z; ic_start : Z; ic_end : Z; ic_mult : Z; ic_snap : Z; ic_excl : bytes; ic_exclMult : R;
  ic_mMax : R; ic_mMin : R }.
(** id.go:136-176. The case m200mMax > m200mMin builds an error but does not return it (id.go:170-171). *)
Definition id_validate (c : IDConf) : bool :=
  (if one_name (ic_idType c) ["halo-id"; "m200m"] then
   if (if one_name (ic_excl c) ["none"; "subhalo"; "neighbor"] then true
       else if one_name (ic_excl c) ["overlap"] then negb (Rleb (ic_exclMult c) 0) else false) then
   if (ic_snap c =? -1)%Z then false else if (ic_snap c <? 0)%Z then false else
   if (ic_mult c <=? 0)%Z then false else
   if Rltb (ic_mMax c) 0 then false else
   if Rltb (ic_mMin c) (ic_mMax c) then true else true
   else false else false)%string.
(** id.go:101-133 *)
Definition read_id parseFloat toLower file flags : option IDConf :=
  match read_mode parseFloat toLower MId file flags with
  | (Nil, [VString _ t; VInts _ ids; VInt _ s; VInt _ e; VInt _ m; VInt _ sn; VString _ ex; VFloat _ em; VFloat _ mx; VFloat _ mn]) =>
      let c := mkIDConf t ids s e m sn ex em mx mn in
      if given file flags then (if id_validate c then Some c else None) else Some c
  | _ => None
  end.

(** stats.go:24-35 *)
Record StatsConf := mkStatsConf { sc_values : list bytes; sc_samples : Z; sc_excl : bytes; sc_order : Z; sc_file : bytes; sc_width : R; sc_skip : bool; sc_filter : bool }.
(** stats.go:147-172 *)
Definition stats_validate (c : StatsConf) : bool :=
  (if forallb (fun v => one_name v ["snap"; "id"; "m_sp"; "r_sp"; "a_sp"; "b_sp"; "c_sp"; "SA_sp/V_sp"]) (sc_values c) then
   if one_name (sc_excl c) ["none"; "contain"; "overlap"] then negb (sc_samples c <=? 0)%Z else false else false)%string.
(** stats.go:106-145. shellFilter is only computed with a file or flags; its zero value is false. *)
Definition read_stats parseFloat toLower file flags : option StatsConf :=
  match read_mode parseFloat toLower MStats file flags with
  | (Nil, [VStrings _ vs; VInt _ n; VString _ ex; VInt _ o; VString _ f; VFloat _ w; VBool _ sk]) =>
      if given file flags then
        let c := mkStatsConf vs n ex o f w sk ((if Req_EM_T w 0 then false else true) && negb (beq f [])) in
        if stats_validate c then Some c else None
      else Some (mkStatsConf vs n ex o f w sk false)
  | _ => None
  end.

(** phase.go:21-32: [ac_radial] is pType = radialPhaseProfile (the zero value). *)
Record PhaseConf := mkPhaseConf { ac_rbins : Z; ac_vbins : Z; ac_rMax : R; ac_vMax : R; ac_sub : bool; ac_radial : bool }.
(** phase.go:95-112 *)
Definition phase_validate (c : PhaseConf) : bool :=
  if (ac_rbins c <? 0)%Z then false else if (ac_vbins c <? 0)%Z then false else if Rltb (ac_rMax c) 0 then false else if Rltb (ac_vMax c) 0 then false else true.
(** phase.go:58-93 *)
Definition read_phase parseFloat toLower file flags : option PhaseConf :=
  match read_mode parseFloat toLower MPhase file flags with
  | (Nil, [VInt _ rb; VInt _ vb; VFloat _ rm; VFloat _ vm; VBool _ sub; VString _ t]) =>
      if given file flags then
        (if beq t [] then None
         else if beq t (lit "radial") then (let c := mkPhaseConf rb vb rm vm sub true in if phase_validate c then Some c else None)
         else if beq t (lit "total") then (let c := mkPhaseConf rb vb rm vm sub false in if phase_validate c then Some c else None)
         else None)%string
      else Some (mkPhaseConf rb vb rm vm sub true)
  | _ => None
  end.

(** potential.go:20-26 *)
Record PotConf := mkPotConf { oc_cells : Z; oc_grid : R; oc_rMax : R; oc_rMin : R; oc_frac : R }.
(** potential.go:68-87 *)
Definition pot_validate (c : PotConf) : bool :=
  if (oc_cells c <? 0)%Z then false else if Rltb (oc_grid c) 0 then false else if Rltb (oc_rMax c) 0 then false else if Rltb (oc_rMin c) 0 then false else true.
(** potential.go:46-66 *)
Definition read_potential parseFloat toLower file flags : option PotConf :=
  match read_mode parseFloat toLower MPotential file flags with
  | (Nil, [VInt _ n; VFloat _ g; VFloat _ rx; VFloat _ rn; VFloat _ fr]) =>
      let c := mkPotConf n g rx rn fr in if given file flags then (if pot_validate c then Some c else None) else Some c
  | _ => None
  end.
