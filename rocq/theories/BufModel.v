(** * The Gadget-2 and LGadget-2 buffers as objects: histories of calls (no proofs in this file).

    Models io/gadget2.go:323-415, io/lgadget2.go:188-282 and io/gotetra.go:50-54. The files are a function from names to contents; None: the file cannot be opened. *)
From Verif Require Export LGadgetModel.
From Verif Require BolshoiModel.
From Coq Require Import Reals.
Local Open Scope Z_scope.

Definition particles : Type := list (list Z) * list (list Z) * list Z * list Z.
(** gadget2.go:323-332, lgadget2.go:188-197: the fields that later calls depend on. The particle buffers are memory whose contents do not matter (stale below). *)
Record buffer := { b_isopen : bool; b_mass : Z }.

(** The methods, and what a call that returns gives back. *)
Inductive call := CRead (f : nat) | CClose | CHeader (f : nat) | CMinMass | CTotal (f : nat).
Inductive answer := Particles (p : particles) | HeaderOf (gh : list Z) | Mass (m : Z) | Total (n : Z) | Done | Failed.

(** What the two formats differ in: reading the particles ([None]: panic, inner None: error), reading a header and the total number ([None]: error). The first option of
    the header functions stands for a panic in readInt32, which a file shorter than 4 bytes causes. *)
Record format := { f_particles : Z -> list Z -> option (option particles); f_header : list Z -> option (option (list Z)); f_total : list Z -> option (option Z) }.

Definition io_step (fm : format) (files : nat -> option (list Z)) (b : buffer) (c : call) : option (buffer * answer) :=
  let read b f := (* gadget2.go:361-372, lgadget2.go:236-245 *)
    if b_isopen b then None else
    let b := {| b_isopen := true; b_mass := b_mass b |} in
    match files f with
    | None => Some (b, Failed)
    | Some bytes => match f_particles fm (b_mass b) bytes with None => None | Some None => Some (b, Failed) | Some (Some p) => Some (b, Particles p) end
    end in
  let close b := (* gadget2.go:375-380, lgadget2.go:248-253 *)
    if b_isopen b then Some ({| b_isopen := false; b_mass := b_mass b |}, Done) else None in
  match c with
  | CRead f => read b f
  | CClose => close b
  | CHeader f => (* gadget2.go:386-400, lgadget2.go:259-273 *)
      match files f with
      | None => Some (b, Failed)
      | Some bytes =>
          match f_header fm bytes with
          | None => None
          | Some None => Some (b, Failed)
          | Some (Some gh) =>
              do r <- read b f; let '(b, a) := r in
              do r <- close b; let '(b, _) := r in
              Some (b, match a with Failed => Failed | _ => HeaderOf gh end)
          end
      end
  | CMinMass => Some (b, Mass (b_mass b)) (* gadget2.go:402, lgadget2.go:275 *)
  | CTotal f => (* gadget2.go:404-415, lgadget2.go:277-282 *)
      match files f with
      | None => Some (b, Failed)
      | Some bytes => match f_total fm bytes with None => None | Some None => Some (b, Failed) | Some (Some n) => Some (b, Total n) end
      end
  end.

(** A history: the answers of the calls; None: a call panics. *)
Fixpoint io_run (fm : format) (files : nat -> option (list Z)) (b : buffer) (cs : list call) : option (buffer * list answer) :=
  match cs with
  | [] => Some (b, [])
  | c :: cs => do r <- io_step fm files b c; let '(b, a) := r in do r <- io_run fm files b cs; let '(b, l) := r in Some (b, a :: l)
  end.

(** readGadget2Header and readLGadget2Header as functions of a file that can be opened: [None]: panic of readInt32, inner None: error of binary.Read. *)
Definition with_panic {A} (e : order) (file : list Z) (x : option A) : option (option A) := match read_i32 e file with None => None | Some _ => Some x end.

Section Formats.
Variables (F : f32ops) (sys e : order) (cap : nat) (stale : nat -> list Z).
Definition gadget_format (c : Context) : format := {|
  f_particles := fun _ => read_gadget2 F sys e cap stale c;
  f_header := fun file => with_panic e file (read_gadget2_header e file);
  f_total := fun file => match with_panic e file (read_gadget2_header e file) with None => None | Some None => Some None | Some (Some _) => match total_particles e c file with Some n => Some (Some n) | None => None end end |}.
(** gadget2.go:334-356 NewGadget2Buffer: no statement sets mass. *)
Definition new_gadget (c : Context) (file : list Z) : option (option buffer) :=
  match with_panic e file (read_gadget2_header e file) with
  | None => None
  | Some None => Some None
  | Some (Some _) => Some (Some {| b_isopen := false; b_mass := 0 |})
  end.

Definition lgadget_format (npartNum : Z) : format := {|
  f_particles := fun mass => read_lgadget2 F sys e cap stale npartNum mass;
  f_header := fun file => with_panic e file (read_lgadget2_header e file);
  f_total := fun file => match with_panic e file (read_lgadget2_header e file) with None => None | Some None => Some None | Some (Some _) => match lg_total e npartNum file with Some n => Some (Some n) | None => None end end |}.
(** lgadget2.go:199-231 NewLGadget2Buffer; [uniform count header] is calcUniformMass(count, BoxSize, cosmology). *)
Definition new_lgadget (uniform : Z -> list Z -> Z) (npartNum : Z) (file : list Z) : option (option buffer) :=
  match with_panic e file (read_lgadget2_header e file) with
  | None => None
  | Some None => Some None
  | Some (Some gh) => match lg_total e npartNum file with Some n => Some (Some {| b_isopen := false; b_mass := uniform n gh |}) | None => None end
  end.
End Formats.

(** gotetra.go:50-54 calcUniformMass in exact arithmetic; rhoM0 is the mean matter density at redshift 0. *)
Definition uniform_mass (count : Z) (tw rhoM0 : R) : R := (tw * tw * tw * rhoM0 / IZR count)%R.

(** bolshoi.go:241-246 and bolshoiP.go:218-223: MinMass of a buffer whose header (that of the file it was made for) has the words hd; word 10 is the box width. *)
Definition bolshoi_min_mass (F : BolshoiModel.bops) (hd : list Z) : Z := BolshoiModel.b_minmass F (nth 10 hd 0).
