(** * The tables that the stages of a pipe hand to each other: cmd/id.go, cmd/coord.go, cmd/shell.go, cmd/stats.go, cmd/prof.go (no proofs in this file).

    Floats are an abstract type [F]; fmtFloat is fmt's "%*.6g" without the padding, parseFloat is strconv.ParseFloat. What a stage computes between reading
    its input and printing its output is the parameter [compute] (modelled elsewhere: CmdModel.v, ShellRunModel.v, StatsRunModel.v). *)
From Verif Require Import GoBase LoopBase CatalogModel CmdModel.
Local Open Scope list_scope.

Section Pipe.
Variable F : Type.
Variable zero : F.
Variable parseFloat : bytes -> option F.
Variable fmtFloat : F -> bytes.

(** id.go:293-312: the lines are formatted, filtered by [exclude] and repeated [mult] times; exclude[i] panics if it is short. *)
Fixpoint id_lines (lines : list bytes) (exclude : list bool) (mult : nat) : option (list bytes) :=
  match lines with
  | [] => Some []
  | l :: lines' =>
      match exclude with
      | [] => None
      | e :: exclude' => match id_lines lines' exclude' mult with
                         | Some r => Some ((if e then [] else repeat l mult) ++ r)
                         | None => None
                         end
      end
  end.
(** id.go:292-325: the output. None: panic. *)
Definition id_text (ids snaps : list Z) (exclude : list bool) (mult : nat) : option (list bytes) :=
  match FormatCols F fmtFloat [ids; snaps] [] [0; 1]%Z with
  | None => None
  | Some lines =>
      match id_lines lines exclude mult, CommentString [lit "ID"; lit "Snapshot"] [] [0; 1]%Z [1; 1]%Z with
      | Some m, Some c => Some (c :: m)
      | _, _ => None
      end
  end.

(** coord.go:76-84: what coord reads. (tree.go:77-81 reads the same columns.) *)
Definition coord_input (stdin : bytes) : res (list Z * list Z) :=
  match Parse F parseFloat stdin [0; 1]%Z [] with
  | Ok ([ids; snaps], _) => if (List.length ids =? 0)%nat then Err else Ok (ids, snaps)
  | Ok _ => Panic
  | Err => Err
  | Panic => Panic
  end.

(** coord.go:106-157 and 187-196 when none of the values is an integer: the output. [colNames]: coord.go:164-185. *)
Definition coord_text (ids snaps : list Z) (cols : list (list F)) (colNames : list bytes) : option (list bytes) :=
  let n := (2 + List.length cols)%nat in
  match FormatCols F fmtFloat [ids; snaps] cols (map Z.of_nat (seq 0 n)),
        CommentString [lit "ID"; lit "Snapshot"] colNames (map Z.of_nat (seq 0 (2 + List.length colNames))) (repeat 1%Z (2 + List.length colNames)) with
  | Some lines, Some c => Some (c :: lines)
  | _, _ => None
  end.

(** shell.go:209-219 *)
Definition shell_input (stdin : bytes) : res (list Z * list Z * list (list F)) :=
  match Parse F parseFloat stdin [0; 1]%Z [2; 3; 4; 5]%Z with
  | Ok ([ids; snaps], coords) => if (List.length ids =? 0)%nat then Err else Ok (ids, snaps, coords)
  | Ok _ => Panic
  | Err => Err
  | Panic => Panic
  end.

(** shell.go:246-269: the output, whatever the rows are (coefficients, or densities with PercentileProfile). None: panic. *)
Definition shell_text (ids snaps : list Z) (coords out : list (list F)) : option (list bytes) :=
  match out with
  | [] => None
  | r0 :: _ =>
      let n := List.length r0 in
      match transpose zero out with
      | None => None
      | Some t =>
          match FormatCols F fmtFloat [ids; snaps] (coords ++ t) (map Z.of_nat (seq 0 (2 + 4 + n))),
                CommentString [lit "ID"; lit "Snapshot"] [lit "X [cMpc/h]"; lit "Y [cMpc/h]"; lit "Z [cMpc/h]"; lit "R200m [cMpc/h]"; lit "P_ijk"]
                  [0; 1; 2; 3; 4; 5; 6]%Z [1; 1; 1; 1; 1; 1; Z.of_nat n]%Z with
          | Some lines, Some c => Some (c :: lines)
          | _, _ => None
          end
      end
  end.

(** shell.go:171-269 Run from standard input to standard output. [compute]: getVectorBuffer and loop. *)
Definition shell_run_text (compute : list Z -> list Z -> list (list F) -> res (list (list F))) (stdin : bytes) : res (list bytes) :=
  match shell_input stdin with
  | Ok (ids, snaps, coords) =>
      match compute ids snaps coords with
      | Ok out => match shell_text ids snaps coords out with Some l => Ok l | None => Panic end
      | Err => Err
      | Panic => Panic
      end
  | Err => Err
  | Panic => Panic
  end.

(** stats.go:190-206 and 230-232: what stats reads; snaps[0] panics if there is no row, transpose (in[0]) if Order is 0. *)
Definition stats_input (order : nat) (stdin : bytes) : res (list Z * list Z * list (list F) * list (list F)) :=
  match Parse F parseFloat stdin [0; 1]%Z (map (fun i => Z.of_nat (i + 2)) (seq 0 (4 + 2 * order * order))) with
  | Ok ([ids; snaps], cols) =>
      match transpose zero (skipn 4 cols) with
      | Some coeffs => match snaps with [] => Panic | _ => Ok (ids, snaps, firstn 4 cols, coeffs) end
      | None => Panic
      end
  | Ok _ => Panic
  | Err => Err
  | Panic => Panic
  end.

(** prof.go:203-212, 279: what prof reads for density and median profiles. *)
Definition prof_input (stdin : bytes) : res (list Z * list Z * list (list F)) :=
  match Parse F parseFloat stdin [0; 1]%Z [2; 3; 4; 5]%Z with
  | Ok ([ids; snaps], coords) => Ok (ids, snaps, coords)
  | Ok _ => Panic
  | Err => Err
  | Panic => Panic
  end.
End Pipe.
