(** * The global config file and the main program: cmd/cmd.go:44-381, shellfish.go:305-636 (no proofs in this file).

    [F] is float64, [parseFloat] is strconv.ParseFloat, [isMinus1] is the test x == -1, [toLower] is strings.ToLower: all
    parameters. A file is its contents. [dirOK name] says that validateDir(name) returns nil (cmd.go:372-381: the name is a
    directory, or it did not exist and could be created); the directories that a run creates are not modelled otherwise. *)
From Verif Require Import GoBase VersionModel ConfigModel EnvModel HeaderMemoModel.
Local Open Scope list_scope.

(** cmd.go:46-84 GlobalConfig (with the embedded env.ParticleInfo, env.go:46-54, and env.HaloInfo, env.go:38-44). *)
Record gconfig (F : Type) : Type := {
  g_version : bytes;
  g_snapshotFormat : bytes;
  g_snapshotType : bytes;
  g_haloDir : bytes;
  g_haloType : bytes;
  g_treeDir : bytes;
  g_treeType : bytes;
  g_memoDir : bytes;
  g_valueNames : list bytes;
  g_valueColumns : list Z;
  g_valueComments : list bytes;
  g_positionUnits : bytes;
  g_radiusUnits : bytes;
  g_massUnits : bytes;
  g_meanings : list bytes;
  g_scaleFactorFile : bytes;
  g_blockMins : list Z;
  g_blockMaxes : list Z;
  g_snapMin : Z;
  g_snapMax : Z;
  g_endianness : bytes;
  g_validateFormats : bool;
  g_threads : Z;
  g_logging : bytes;
  g_dmTypes : list Z;
  g_singleMass : list Z;
  g_gadgetPosition : F;
  g_gadgetMass : F;
  g_npartNum : Z;
  g_nilOmegaM : F;
  g_nilOmegaL : F;
  g_nilH100 : F;
  g_nilScaleFactors : list F;
  g_nilTotalWidth : F;
}.
Arguments g_version {F}. Arguments g_snapshotFormat {F}. Arguments g_snapshotType {F}. Arguments g_haloDir {F}.
Arguments g_haloType {F}. Arguments g_treeDir {F}. Arguments g_treeType {F}. Arguments g_memoDir {F}.
Arguments g_valueNames {F}. Arguments g_valueColumns {F}. Arguments g_valueComments {F}. Arguments g_positionUnits {F}.
Arguments g_radiusUnits {F}. Arguments g_massUnits {F}. Arguments g_meanings {F}. Arguments g_scaleFactorFile {F}.
Arguments g_blockMins {F}. Arguments g_blockMaxes {F}. Arguments g_snapMin {F}. Arguments g_snapMax {F}.
Arguments g_endianness {F}. Arguments g_validateFormats {F}. Arguments g_threads {F}. Arguments g_logging {F}.
Arguments g_dmTypes {F}. Arguments g_singleMass {F}. Arguments g_gadgetPosition {F}. Arguments g_gadgetMass {F}.
Arguments g_npartNum {F}. Arguments g_nilOmegaM {F}. Arguments g_nilOmegaL {F}. Arguments g_nilH100 {F}.
Arguments g_nilScaleFactors {F}. Arguments g_nilTotalWidth {F}.

(** shellfish.go:567-576 int64sEqual and 578-588 stringsEqual. *)
Fixpoint same_list {A} (eqb : A -> A -> bool) (xs ys : list A) : bool :=
  match xs, ys with
  | [], [] => true
  | x :: xs', y :: ys' => eqb x y && same_list eqb xs' ys'
  | _, _ => false
  end.
Definition int64sEqual : list Z -> list Z -> bool := same_list Z.eqb.
Definition stringsEqual : list bytes -> list bytes -> bool := same_list beq.

(** strings.Join(strings.Split(s, " "), "") (cmd.go:185-187, 200-202, 215-217): every space is removed. *)
Definition strip_spaces (s : bytes) : bytes := filter (fun c => negb (Ascii.eqb c sp)) s.

Definition one_of (s : bytes) (l : list string) : bool := existsb (beq s) (map lit l).

(** cmd.go:361-368 inStringSlice. *)
Definition inStringSlice (x : bytes) (xs : list bytes) : bool := existsb (beq x) xs.

Section Global.
Variable F : Type.
Variable parseFloat : bytes -> option F.
Variable toLower : bytes -> bytes.
Variable isMinus1 : F -> bool.
Variables fminus1 f1 : F.                 (* the constants -1 and 1.0 *)
Variable dirOK : bytes -> bool.

Notation gconfig := (gconfig F).

(** cmd.go:91-135: the registered variables with their default values. *)
Definition registered : list (string * varType * value F) := [
  ("Version", stringVar, VString F SourceVersion);
  ("SnapshotFormat", stringVar, VString F []);
  ("SnapshotType", stringVar, VString F []);
  ("HaloDir", stringVar, VString F []);
  ("HaloType", stringVar, VString F (lit "nil"));
  ("TreeDir", stringVar, VString F []);
  ("TreeType", stringVar, VString F (lit "nil"));
  ("MemoDir", stringVar, VString F []);
  ("HaloValueNames", stringsVar, VStrings F []);
  ("HaloValueColumns", intsVar, VInts F []);
  ("HaloValueComments", stringsVar, VStrings F []);
  ("HaloPositionUnits", stringVar, VString F []);
  ("HaloRadiusUnits", stringVar, VString F []);
  ("HaloMassUnits", stringVar, VString F []);
  ("SnapshotFormatMeanings", stringsVar, VStrings F []);
  ("ScaleFactorFile", stringVar, VString F []);
  ("BlockMins", intsVar, VInts F []);
  ("BlockMaxes", intsVar, VInts F []);
  ("SnapMin", intVar, VInt F (-1));
  ("SnapMax", intVar, VInt F (-1));
  ("Endianness", stringVar, VString F (lit "SystemOrder"));
  ("ValidateFormats", boolVar, VBool F false);
  ("Threads", intVar, VInt F (-1));
  ("Logging", stringVar, VString F (lit "nil"));
  ("GadgetDMTypeIndices", intsVar, VInts F [1%Z]);
  ("GadgetSingleMassIndices", intsVar, VInts F [1%Z]);
  ("GadgetPositionUnits", floatVar, VFloat F f1);
  ("GadgetMassUnits", floatVar, VFloat F f1);
  ("LGadgetNpartNum", intVar, VInt F 2);
  ("NilSnapOmegaM", floatVar, VFloat F fminus1);
  ("NilSnapOmegaL", floatVar, VFloat F fminus1);
  ("NilSnapH100", floatVar, VFloat F fminus1);
  ("NilSnapScaleFactors", floatsVar, VFloats F []);
  ("NilSnapTotalWidth", floatVar, VFloat F fminus1)]%string.

Definition global_vars : ConfigVars :=
  {| cv_name := lit "config";
     cv_vars := map (fun r => {| rv_name := lit (fst (fst r)); rv_type := snd (fst r) |}) registered |}.
Definition global_defaults : list (value F) := map snd registered.

Definition get_string (st : list (value F)) i := match nth_error st i with Some (VString _ s) => s | _ => [] end.
Definition get_strings (st : list (value F)) i := match nth_error st i with Some (VStrings _ s) => s | _ => [] end.
Definition get_int (st : list (value F)) i := match nth_error st i with Some (VInt _ s) => s | _ => 0%Z end.
Definition get_ints (st : list (value F)) i := match nth_error st i with Some (VInts _ s) => s | _ => [] end.
Definition get_bool (st : list (value F)) i := match nth_error st i with Some (VBool _ s) => s | _ => false end.
Definition get_float (st : list (value F)) i := match nth_error st i with Some (VFloat _ s) => s | _ => fminus1 end.
Definition get_floats (st : list (value F)) i := match nth_error st i with Some (VFloats _ s) => s | _ => [] end.

(** The struct whose fields cmd.go:92-135 registers, in that order. *)
Definition fields (st : list (value F)) : gconfig :=
  {| g_version := get_string st 0; g_snapshotFormat := get_string st 1; g_snapshotType := get_string st 2;
     g_haloDir := get_string st 3; g_haloType := get_string st 4; g_treeDir := get_string st 5;
     g_treeType := get_string st 6; g_memoDir := get_string st 7;
     g_valueNames := get_strings st 8; g_valueColumns := get_ints st 9; g_valueComments := get_strings st 10;
     g_positionUnits := get_string st 11; g_radiusUnits := get_string st 12; g_massUnits := get_string st 13;
     g_meanings := get_strings st 14; g_scaleFactorFile := get_string st 15;
     g_blockMins := get_ints st 16; g_blockMaxes := get_ints st 17; g_snapMin := get_int st 18; g_snapMax := get_int st 19;
     g_endianness := get_string st 20; g_validateFormats := get_bool st 21; g_threads := get_int st 22;
     g_logging := get_string st 23; g_dmTypes := get_ints st 24; g_singleMass := get_ints st 25;
     g_gadgetPosition := get_float st 26; g_gadgetMass := get_float st 27; g_npartNum := get_int st 28;
     g_nilOmegaM := get_float st 29; g_nilOmegaL := get_float st 30; g_nilH100 := get_float st 31;
     g_nilScaleFactors := get_floats st 32; g_nilTotalWidth := get_float st 33 |}.

(** Replacing the three unit fields (cmd.go:185-231). *)
Definition with_units (g : gconfig) (p r m : bytes) : gconfig :=
  {| g_version := g_version g; g_snapshotFormat := g_snapshotFormat g; g_snapshotType := g_snapshotType g;
     g_haloDir := g_haloDir g; g_haloType := g_haloType g; g_treeDir := g_treeDir g;
     g_treeType := g_treeType g; g_memoDir := g_memoDir g;
     g_valueNames := g_valueNames g; g_valueColumns := g_valueColumns g; g_valueComments := g_valueComments g;
     g_positionUnits := p; g_radiusUnits := r; g_massUnits := m;
     g_meanings := g_meanings g; g_scaleFactorFile := g_scaleFactorFile g;
     g_blockMins := g_blockMins g; g_blockMaxes := g_blockMaxes g; g_snapMin := g_snapMin g; g_snapMax := g_snapMax g;
     g_endianness := g_endianness g; g_validateFormats := g_validateFormats g; g_threads := g_threads g;
     g_logging := g_logging g; g_dmTypes := g_dmTypes g; g_singleMass := g_singleMass g;
     g_gadgetPosition := g_gadgetPosition g; g_gadgetMass := g_gadgetMass g; g_npartNum := g_npartNum g;
     g_nilOmegaM := g_nilOmegaM g; g_nilOmegaL := g_nilOmegaL g; g_nilH100 := g_nilH100 g;
     g_nilScaleFactors := g_nilScaleFactors g; g_nilTotalWidth := g_nilTotalWidth g |}.

(** What EnvModel.validate_format reads of the struct (cmd.go:385-455; ScaleFactorFile's contents are not read there). *)
Definition format_info (g : gconfig) : pinfo :=
  {| snapshotFormat := g_snapshotFormat g; meanings := g_meanings g; scaleFactorFile := None;
     blockMins := g_blockMins g; blockMaxes := g_blockMaxes g; snapMin := g_snapMin g; snapMax := g_snapMax g;
     logging := g_logging g |}.

Definition length_units : list string :=
  ["cMpc/h"; "ckpc/h"; "pMpc/h"; "pkpc/h"; "cMpc"; "ckpc"; "pMpc"; "pkpc"]%string.

(** cmd.go:302-326: [false] is an error return. The switch stops at its first true case, and the NilSnapOmegaL case only
    prints an empty line. *)
Definition nil_check (g : gconfig) : bool :=
  if beq (g_snapshotType g) (lit "nil") then
    if isMinus1 (g_nilOmegaM g) then false
    else if isMinus1 (g_nilOmegaL g) then true
    else if isMinus1 (g_nilH100 g) then false
    else if isMinus1 (g_nilTotalWidth g) then false
    else negb (List.length (g_nilScaleFactors g) =? 0)%nat
  else true.

(** cmd.go:303-309: does validate print an empty line on standard output? *)
Definition prints_line (g : gconfig) : bool :=
  beq (g_snapshotType g) (lit "nil") && negb (isMinus1 (g_nilOmegaM g)) && isMinus1 (g_nilOmegaL g).

(** cmd.go:183-231: the units of halo catalogues; [None] is an error return. *)
Definition units (g : gconfig) : option gconfig :=
  if beq (g_haloType g) (lit "nil") then Some (with_units g (lit "cMpc/h") (lit "cMpc/h") (lit "Msun/h"))
  else
    let p := strip_spaces (g_positionUnits g) in
    let r := strip_spaces (g_radiusUnits g) in
    let m := strip_spaces (g_massUnits g) in
    if negb (one_of p length_units) then None
    else if negb (one_of r length_units) then None
    else if negb (one_of m ["Msun/h"%string]) then None
    else Some (with_units g p r m).

(** cmd.go:242-300: the halo and tree variables (only read if HaloType is not nil) and MemoDir. *)
Definition halo_check (g : gconfig) : bool :=
  let h := negb (beq (g_haloType g) (lit "nil")) in
  if h && (beq (g_haloDir g) [] || negb (dirOK (g_haloDir g))) then false
  else if h && (beq (g_treeDir g) [] || negb (dirOK (g_treeDir g))) then false
  else if beq (g_memoDir g) [] || negb (dirOK (g_memoDir g)) then false
  else if h then
    if (List.length (g_valueNames g) =? 0)%nat then false
    else if (List.length (g_valueColumns g) =? 0)%nat then false
    else if negb (List.length (g_valueNames g) =? List.length (g_valueColumns g))%nat then false
    else if negb (inStringSlice (lit "ID") (g_valueNames g)) then false
    else if negb (inStringSlice (lit "X") (g_valueNames g)) then false
    else if negb (inStringSlice (lit "Y") (g_valueNames g)) then false
    else if negb (inStringSlice (lit "Z") (g_valueNames g)) then false
    else inStringSlice (lit "M200m") (g_valueNames g)
  else true.

(** cmd.go:148-359 validate: the struct with its units normalised. *)
Definition validate (g0 : gconfig) : res gconfig :=
  if negb (validateVersion SourceVersion (g_version g0)) then Err
  else if negb (one_of (g_snapshotType g0)
                  ["gotetra"; "LGadget-2"; "Gadget-2"; "ARTIO"; "Bolshoi"; "BolshoiP"; "nil"]%string) then Err
  else if negb (one_of (g_haloType g0) ["Text"; "nil"]%string) then Err
  else
    match units g0 with
    | None => Err
    | Some g =>
        if negb (one_of (g_treeType g) ["consistent-trees"; "nil"]%string) then Err
        else if negb (halo_check g) then Err
        else if negb (nil_check g) then Err
        else if negb (one_of (g_endianness g) ["LittleEndian"; "BigEndian"; "SystemOrder"]%string) then Err
        else if negb (List.length (g_valueNames g) =? List.length (g_valueColumns g))%nat then Err
        else if negb (List.length (g_valueNames g) =? List.length (g_valueComments g))%nat then Err
        else if (2 <? g_npartNum g)%Z || (g_npartNum g <=? 0)%Z then Err
        else match validate_format (format_info g) with
             | Ok _ => Ok g
             | Err => Err
             | Panic => Panic
             end
    end.

(** cmd.go:89-144 ReadConfig. *)
Definition read_global (text : bytes) : res gconfig :=
  match ReadConfig F parseFloat toLower text global_vars global_defaults with
  | (Nil, st) => validate (fields st)
  | (Fail _, _) => Err
  | (Panics, _) => Panic
  end.

(** shellfish.go:543-565 configEqual. *)
Definition configEqual (m c : gconfig) : bool :=
  beq (g_version c) (g_version m) &&
  beq (g_snapshotFormat c) (g_snapshotFormat m) &&
  beq (g_snapshotType c) (g_snapshotType m) &&
  beq (g_haloDir c) (g_haloDir m) &&
  beq (g_haloType c) (g_haloType m) &&
  beq (g_treeDir c) (g_treeDir m) &&
  int64sEqual (g_blockMins c) (g_blockMins m) &&
  int64sEqual (g_blockMaxes c) (g_blockMaxes m) &&
  (g_snapMin c =? g_snapMin m)%Z &&
  (g_snapMax c =? g_snapMax m)%Z &&
  stringsEqual (g_meanings c) (g_meanings m) &&
  stringsEqual (g_valueNames c) (g_valueNames m) &&
  int64sEqual (g_valueColumns c) (g_valueColumns m) &&
  beq (g_positionUnits c) (g_positionUnits m) &&
  beq (g_massUnits c) (g_massUnits m) &&
  int64sEqual (g_valueColumns c) (g_valueColumns m) &&
  stringsEqual (g_valueNames c) (g_valueNames m) &&
  beq (g_endianness c) (g_endianness m).

(** shellfish.go:491-521 checkMemoDir with copyFile (524-541): [memo] is the contents of memo.config in the memo directory,
    [text] those of the global config file, [disk] the number of bytes that the copy gets to disk before the process dies
    or the disk is full (io.Copy then returns an error). Result: the returned error (or nil) and memo.config afterwards.
    A Stat that fails for another reason than a missing file is not modelled. *)
Definition checkMemoDir (memo : option bytes) (text : bytes) (disk : nat) : res unit * option bytes :=
  match memo with
  | None => (if (disk <? List.length text)%nat then Err else Ok tt, Some (firstn disk text))
  | Some m =>
      (match read_global text with
       | Ok c => match read_global m with
                 | Ok mc => if configEqual c mc then Ok tt else Err
                 | Err => Err
                 | Panic => Panic
                 end
       | Err => Err
       | Panic => Panic
       end, memo)
  end.

(** main up to the memo check (shellfish.go:376-402): the global config file is read first. *)
Definition start (memo : option bytes) (text : bytes) (disk : nat) : res gconfig * option bytes :=
  match read_global text with
  | Ok g => match checkMemoDir memo text disk with
            | (Ok _, memo') => (Ok g, memo')
            | (Err, memo') => (Err, memo')
            | (Panic, memo') => (Panic, memo')
            end
  | Err => (Err, memo)
  | Panic => (Panic, memo)
  end.

(** What happens to one memo directory over time, one process after the other. *)
Inductive memo_event :=
| Run (text : bytes)                   (* a run with this global config file *)
| Killed (text : bytes) (disk : nat)   (* killed, or out of disk space, while copying the config file *)
| Clear.                               (* the user empties the directory *)

(** The configurations under which runs got past the check, in order; [None] marks a clearing. *)
Fixpoint passes (memo : option bytes) (es : list memo_event) : list (option gconfig) :=
  match es with
  | [] => []
  | Run text :: es' =>
      match start memo text (List.length text) with
      | (Ok g, memo') => Some g :: passes memo' es'
      | (_, memo') => passes memo' es'
      end
  | Killed text disk :: es' => passes (snd (start memo text disk)) es'
  | Clear :: es' => None :: passes None es'
  end.

(** ** Two processes at once: the steps of checkMemoDir as they hit the file system, for configurations known to be valid. *)
Inductive proc :=
| AtStat (text : bytes)                  (* before os.Stat *)
| AtCreate (text : bytes)                (* Stat found nothing: about to create and copy *)
| AtCompare (text : bytes)               (* Stat found a file: about to read it *)
| Passed (text : bytes)
| Refused.

(** One step of one process; copying is a single step (the longest uninterrupted schedule is enough for what follows). *)
Definition step_proc (memo : option bytes) (p : proc) : option bytes * proc :=
  match p with
  | AtStat t => (memo, match memo with None => AtCreate t | Some _ => AtCompare t end)
  | AtCreate t => (Some t, Passed t)
  | AtCompare t =>
      (memo, match memo, read_global t with
             | Some m, Ok c => match read_global m with
                               | Ok mc => if configEqual c mc then Passed t else Refused
                               | _ => Refused
                               end
             | _, _ => Refused
             end)
  | Passed t => (memo, Passed t)
  | Refused => (memo, Refused)
  end.

(** A schedule: [true] lets the first process take a step, [false] the second. *)
Fixpoint schedule (memo : option bytes) (p q : proc) (sch : list bool) : option bytes * proc * proc :=
  match sch with
  | [] => (memo, p, q)
  | true :: sch' => let (memo', p') := step_proc memo p in schedule memo' p' q sch'
  | false :: sch' => let (memo', q') := step_proc memo q in schedule memo' p q' sch'
  end.

(** ** Headers cached by several runs (memoize.go:260-302 and HeaderMemoModel): [src] is what the snapshot's own files give
    under a configuration. *)
Variable src : gconfig -> Z -> res (list header).
Variable nb : gconfig -> nat.

(** A run that gets past the check and then asks for the headers of some snapshots. *)
Definition header_run (memo : option bytes) (d : memo_dir) (text : bytes) (snaps : list Z)
  : list (gconfig * Z * res (list header)) * (option bytes * memo_dir) :=
  match start memo text (List.length text) with
  | (Ok g, memo') =>
      let fix go (d : memo_dir) (snaps : list Z) :=
        match snaps with
        | [] => ([], d)
        | s :: ss =>
            let '(r, d') := read_headers (src g) (nb g) d s (72 * nb g) in
            let '(rs, d'') := go d' ss in ((g, s, r) :: rs, d'')
        end in
      let '(rs, d') := go d snaps in (rs, (memo', d'))
  | (_, memo') => ([], (memo', d))
  end.

Inductive run_event :=
| HRun (text : bytes) (snaps : list Z)
| HKilled (text : bytes) (disk : nat)      (* killed while copying the config file *)
| HClear.                                   (* rm -r MemoDir/* *)

Fixpoint header_runs (memo : option bytes) (d : memo_dir) (es : list run_event)
  : list (gconfig * Z * res (list header)) :=
  match es with
  | [] => []
  | HRun text snaps :: es' =>
      let '(rs, (memo', d')) := header_run memo d text snaps in rs ++ header_runs memo' d' es'
  | HKilled text disk :: es' => header_runs (snd (start memo text disk)) d es'
  | HClear :: es' => header_runs None (fun _ => None) es'
  end.
End Global.

(** io/nil.go:29-53 NilBuffer.ReadHeader; float64s are bit patterns, [inv1] is x |-> 1/x - 1 and [to32] the conversion to
    float32. Atoi's error is dropped (idx = 0). [None] is the index panic. *)
Definition nil_header (inv1 to32 : Z -> Z) (g : gconfig Z) (fname : bytes) : option header :=
  let idx := match atoi fname with Some i => i | None => 0%Z end in
  if (idx <? 0)%Z then None
  else match nth_error (g_nilScaleFactors g) (Z.to_nat idx) with
       | None => None
       | Some a =>
           let w := to32 (g_nilTotalWidth g) in
           Some {| hd64 := [inv1 a; g_nilOmegaM g; g_nilOmegaL g; g_nilH100 g; (2 ^ 64 - 1)%Z; g_nilTotalWidth g];
                   hd32 := [0%Z; 0%Z; 0%Z; w; w; w] |}
       end.

(** cmd/env/nil_snapshot.go:8-13 InitNil: one block per snapshot of SnapMin..SnapMax, named "0", "1", ... (the fields of g are within the
    int64 range; a negative length of make is the panic at start-up). *)
Definition nil_names (g : gconfig Z) : list bytes :=
  List.map (fun i => itoa (Z.of_nat i)) (List.seq 0 (Z.to_nat (g_snapMax g - g_snapMin g + 1))).

(** env.go:145-151 Catalogs.Blocks, ParticleCatalog. InitNil does not set snapMin, so it is 0 whatever SnapMin is. [None] is the index
    panic. *)
Definition nil_catalog (g : gconfig Z) (snap : Z) : option bytes :=
  if (snap <? 0)%Z then None else nth_error (nil_names g) (Z.to_nat snap).

(** memoize.go:242-256 readUnmemoizedHeaders for SnapshotType = nil. *)
Definition nil_source (inv1 to32 : Z -> Z) (g : gconfig Z) (snap : Z) : res (list header) :=
  match nil_catalog g snap with
  | None => Panic
  | Some f =>
      match nil_header inv1 to32 g f with
      | Some h => Ok [h]
      | None => Panic
      end
  end.
