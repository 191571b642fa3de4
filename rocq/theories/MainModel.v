(** * The main program: shellfish.go:305-485, 591-636 (no proofs in this file).

    A process is described by what it returns to the shell: the bytes on standard output and the exit status (0 normal, 1
    os.Exit(1), 2 a panic; messages on standard error are not modelled). The modes themselves are parameters: what reading
    the mode's own config file gives, and what Run gives on the catalogue read from standard input. *)
From Verif Require Import GoBase VersionModel ConfigModel EnvModel GlobalModel.
Local Open Scope list_scope.

(** shellfish.go:453-459 getFlags, on the arguments after the mode. *)
Definition getFlags (args : list bytes) : list bytes :=
  match args with
  | [] => args
  | [] :: _ => args
  | (c :: _) :: rest => if Ascii.eqb c "-"%char then args else rest
  end.

(** shellfish.go:480-485 getConfig ([None] = ("", false)). *)
Definition getConfig (args : list bytes) : option bytes :=
  match args with
  | [] => None
  | [] :: _ => None
  | (c :: s) :: _ => if Ascii.eqb c "-"%char then None else Some (c :: s)
  end.

(** cmd.go:17-27 ModeNames. *)
Definition mode_names : list string :=
  ["id"; "tree"; "coord"; "prof"; "shell"; "stats"; "phase"; "check"; "potential"]%string.

(** shellfish.go:353: the modes that read standard input. *)
Definition stdin_modes : list string := ["tree"; "coord"; "prof"; "shell"; "stats"; "phase"; "potential"]%string.

(** shellfish.go:405, 595: the modes that need particles, and no halo catalogue. *)
Definition particle_modes : list string := ["shell"; "stats"; "prof"; "check"; "phase"; "potential"]%string.

(** "Shellfish terminating." and a newline (shellfish.go:347, 358, 380, ...). *)
Definition terminating : bytes := lit "Shellfish terminating." ++ [nl].

(** fmt.Println of each line (shellfish.go:447-449). *)
Definition print_lines (ls : list bytes) : bytes := flat_map (fun l => l ++ [nl]) ls.

(** What surrounds one process. *)
Record process (F : Type) := {
  p_args : list bytes;                         (* os.Args[1:] *)
  p_global : option bytes;                     (* contents of $SHELLFISH_GLOBAL_CONFIG; None: unset or unreadable *)
  p_memo : option bytes;                       (* memo.config in its MemoDir *)
  p_help : bytes;                              (* what help, version and hello print *)
  p_config : option bytes -> list bytes -> res unit;   (* mode.ReadConfig(config, flags) *)
  p_catalogs : gconfig F -> res unit;          (* initCatalogs, 618-636 *)
  p_textHalo : gconfig F -> res unit;          (* e.InitTextHalo *)
  p_run : gconfig F -> bytes -> res (list bytes);      (* mode.Run *)
}.
Arguments p_args {F}. Arguments p_global {F}. Arguments p_memo {F}. Arguments p_help {F}. Arguments p_config {F}.
Arguments p_catalogs {F}. Arguments p_textHalo {F}. Arguments p_run {F}.

(** shellfish.go:591-616 initHalos: the checks of TreeType (604-609) come after a return; other HaloTypes than nil and Text
    do not get past validation (cmd.go:174-181) and would end in the panic of line 615. *)
Definition initHalos {F} (mode : bytes) (g : gconfig F) (textHalo : res unit) : res unit :=
  if one_of mode particle_modes then Ok tt
  else if beq (g_haloType g) (lit "nil") then Err
  else if beq (g_haloType g) (lit "Text") then textHalo
  else if beq (g_treeType g) (lit "nil") then Err
  else Panic.

Section Main.
Variable F : Type.
Variable parseFloat : bytes -> option F.
Variable toLower : bytes -> bytes.
Variable isMinus1 : F -> bool.
Variables fminus1 f1 : F.
Variable dirOK : bytes -> bool.

Notation read_global_ := (read_global F parseFloat toLower isMinus1 fminus1 f1 dirOK).
Notation checkMemoDir_ := (checkMemoDir F parseFloat toLower isMinus1 fminus1 f1 dirOK).

(** cmd.go:148-309: does validate get to the println of line 309? *)
Definition validate_prints (g0 : gconfig F) : bool :=
  validateVersion SourceVersion (g_version g0) &&
  one_of (g_snapshotType g0) ["gotetra"; "LGadget-2"; "Gadget-2"; "ARTIO"; "Bolshoi"; "BolshoiP"; "nil"]%string &&
  one_of (g_haloType g0) ["Text"; "nil"]%string &&
  match units F g0 with
  | None => false
  | Some g => one_of (g_treeType g) ["consistent-trees"; "nil"]%string && halo_check F dirOK g && prints_line F isMinus1 g
  end.

(** Standard output of one GlobalConfig.ReadConfig (cmd.go:89-144). *)
Definition read_prints (text : bytes) : bytes :=
  match ReadConfig F parseFloat toLower text (global_vars F fminus1 f1) (global_defaults F fminus1 f1) with
  | (Nil, st) => if validate_prints (fields F fminus1 st) then [nl] else []
  | _ => []
  end.

(** Standard output of checkMemoDir (shellfish.go:491-521): it reads both files unless the directory is clean. *)
Definition memo_prints (memo : option bytes) (text : bytes) : bytes :=
  match memo with
  | None => []
  | Some m => read_prints text ++ match read_global_ text with Ok _ => read_prints m | _ => [] end
  end.

(** An error return (shellfish.go:378-396, 398-402, 414-427, 441-445) after [out] was printed; a panic prints nothing more. *)
Definition failing (out : bytes) : bytes * nat := (out ++ terminating, 1).
Definition panicking (out : bytes) : bytes * nat := (out, 2).

(** shellfish.go:375-450: main after the mode has been recognised and standard input read. *)
Definition main_mode (p : process F) (mode : bytes) (rest : list bytes) (stdin : bytes) : bytes * nat :=
  match p_global p with
  | None => failing []
  | Some text =>
      let out := read_prints text in
      match read_global_ text with
      | Panic => panicking out
      | Err => failing out
      | Ok g =>
          match p_config p (getConfig rest) (getFlags rest) with
          | Panic => panicking out
          | Err => failing out
          | Ok _ =>
              let out := out ++ memo_prints (p_memo p) text in
              match fst (checkMemoDir_ (p_memo p) text (List.length text)) with
              | Panic => panicking out
              | Err => failing out
              | Ok _ =>
                  if one_of mode particle_modes && beq (g_snapshotType g) (lit "nil")
                  then (out ++ lit "Shellfish terminating" ++ [nl], 1)
                  else
                    match p_catalogs p g with
                    | Panic => panicking out
                    | Err => failing out
                    | Ok _ =>
                        match initHalos mode g (p_textHalo p g) with
                        | Panic => panicking out
                        | Err => failing out
                        | Ok _ =>
                            if negb (one_of (g_logging g) ["nil"; "performance"; "debug"]%string) then (out, 1)
                            else match p_run p g stdin with
                                 | Panic => panicking out
                                 | Err => failing out
                                 | Ok ls => (out ++ print_lines ls, 0)
                                 end
                        end
                    end
              end
          end
      end
  end.

(** shellfish.go:366-372: the marker of a failed stage upstream. *)
Definition upstream_failed (stdin : bytes) : option bytes :=
  let lineEnd := match index_byte nl stdin with Some i => i | None => List.length stdin end in
  if (9 <=? lineEnd) && beq (firstn 9 stdin) (lit "Shellfish") then Some (firstn lineEnd stdin) else None.

(** shellfish.go:305-450 main. *)
Definition main (p : process F) (stdin : bytes) : bytes * nat :=
  match p_args p with
  | [] => ([], 1)
  | mode :: rest =>
      if one_of mode ["help"; "version"; "hello"]%string then (p_help p, 0)
      else if negb (one_of mode mode_names) then (terminating, 1)
      else if one_of mode stdin_modes then
        match stdin with
        | [] => ([], 0)
        | _ => match upstream_failed stdin with
               | Some l => (l ++ [nl], 1)
               | None => main_mode p mode rest stdin
               end
        end
      else main_mode p mode rest []
  end.

(** A shell pipe: each process reads what the one before it wrote; the results of all of them, in order. *)
Fixpoint pipe (ps : list (process F)) (stdin : bytes) : list (bytes * nat) :=
  match ps with
  | [] => []
  | p :: ps' => let r := main p stdin in r :: pipe ps' (fst r)
  end.
End Main.
