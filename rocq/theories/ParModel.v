(** * Groups of goroutines that stride over a task list and report through a buffered channel (no proofs in this file).

    cmd/stats.go:451-543 (massContained), 482-511,545-597 (appendShellParticles), cmd/shell.go:423-500
    (loadSphereVecs), cmd/prof.go:384-413, cmd/potential.go:191-204,255-313 with cmd/utils.go:61-96 (LockGroup).

    One action of one goroutine is executed at a time, in any order: every interleaving is a sequence of [step]s. An
    action is the update of one memory cell by a worker; a cell is a variable of the worker, or an array element or
    object shared by all workers. That no cell is used by two workers (so that Go's memory model gives every
    execution such an interleaving) is a theorem about the programs, not part of this model.                       *)
From Verif Require Export GoBase LoopBase.
Local Open Scope nat_scope.

(** The loop  for i := offset; i < n; i += skip  (stats.go:527,562; shell.go:492; prof.go:389; potential.go:283):
    the values of i. With skip = 0 the loop would not end; n iterations are modelled. *)
Fixpoint stride_from (fuel i skip n : nat) : list nat :=
  match fuel with
  | O => []
  | S fuel' => if i <? n then i :: stride_from fuel' (i + skip) skip n else []
  end.
Definition stride (offset skip n : nat) : list nat := stride_from n offset skip n.

(** xs[i] = v for an index known to be in range. *)
Definition set_nth {A} (l : list A) (i : nat) (v : A) : list A := firstn i l ++ v :: skipn (S i) l.

(** An action of a worker: the cell and what happens to its contents. *)
Definition action (A : Type) := (nat * (A -> A))%type.

(** A worker still has these actions to do before it sends, or has sent. *)
Inductive worker (A : Type) := Running (rest : list (action A)) | Sent.
Arguments Running {A}. Arguments Sent {A}.

(** A: contents of a memory cell, B: messages. *)
Record state (A B : Type) := { workers : list (worker A); memory : nat -> A; channel : list B; received : list B }.
Arguments workers {A B}. Arguments memory {A B}. Arguments channel {A B}. Arguments received {A B}.

Definition set_cell {A} (mem : nat -> A) (c : nat) (v : A) : nat -> A := fun c' => if c' =? c then v else mem c'.

Section Par.
Context {A B : Type}.
(** The number of workers and the capacity of the channel (both `workers`: stats.go:460,492; shell.go:439; utils.go:78). *)
Variables W cap : nat.
(** The message worker w sends last (stats.go:542,596; shell.go:499; utils.go:67), from the memory at that time. *)
Variable msg : nat -> (nat -> A) -> B.
(** Whether the last worker's program is run by the goroutine that then receives (stats.go:467,501; shell.go:458). *)
Variable inline : bool.

Inductive step : state A B -> state A B -> Prop :=
| step_work s w c f rest :
    nth_error (workers s) w = Some (Running ((c, f) :: rest)) ->
    step s {| workers := set_nth (workers s) w (Running rest); memory := set_cell (memory s) c (f (memory s c));
              channel := channel s; received := received s |}
(** A send on a buffered channel blocks while the buffer is full. *)
| step_send s w :
    nth_error (workers s) w = Some (Running []) -> List.length (channel s) < cap ->
    step s {| workers := set_nth (workers s) w Sent; memory := memory s;
              channel := channel s ++ [msg w (memory s)]; received := received s |}
(** The loop of W receives (stats.go:473-475,506-508; shell.go:460-462; utils.go:95). *)
| step_receive s v rest :
    channel s = v :: rest -> List.length (received s) < W ->
    (inline = true -> nth_error (workers s) (W - 1) = Some Sent) ->
    step s {| workers := workers s; memory := memory s; channel := rest; received := received s ++ [v] |}.

Definition start (prog : nat -> list (action A)) (mem : nat -> A) : state A B :=
  {| workers := map (fun w => Running (prog w)) (seq 0 W); memory := mem; channel := []; received := [] |}.

(** The receiving loop has ended. *)
Definition finished (s : state A B) : Prop := List.length (received s) = W.

(** k steps. *)
Inductive steps : nat -> state A B -> state A B -> Prop :=
| steps_refl s : steps 0 s s
| steps_next k s s' s'' : steps k s s' -> step s' s'' -> steps (S k) s s''.
End Par.

(** cmd/stats.go:513-543 massContainedChan(offset = w). Cell w is the worker's variable sum; [inside i] is the test of
    lines 528-537 on particle i and [ms i] its mass. *)
Definition mass_prog {M} (add : M -> M -> M) (inside : nat -> bool) (ms : nat -> M) (n W w : nat) : list (action M) :=
  map (fun i => (w, fun sum => if inside i then add sum (ms i) else sum)) (stride w W n).
(** stats.go:472-475: sum := 0.0; sum += <-outChan, over what was received. *)
Definition mass_total {M} (add : M -> M -> M) (zero : M) (recv : list M) : M := fold_left add recv zero.

(** cmd/stats.go:545-597 appendShellParticlesChan(offset = w). Cell w is the worker's variable buf. *)
Definition ids_prog {I} (keep : nat -> bool) (pIDs : nat -> I) (n W w : nat) : list (action (list I)) :=
  map (fun i => (w, fun buf => if keep i then buf ++ [pIDs i] else buf)) (stride w W n).
(** stats.go:506-508. *)
Definition ids_total {I} (out : list I) (recv : list (list I)) : list I := fold_left (fun o b => o ++ b) recv out.

(** cmd/shell.go:479-500 chanLoadSphereVec(offset = w), sf3 = int(sf*sf*sf). Cell w is the halo of worker w (the W-1
    copies made by Split, and h for the last one); an Insert is recorded as the index of the particle inserted. *)
Definition shell_prog (intr : nat -> bool) (sf3 n W w : nat) : list (action (list nat)) :=
  map (fun i => (w, fun h => if intr i then h ++ [i] else h)) (stride (w * sf3) (W * sf3) n).

(** cmd/potential.go:255-313 insertPotentialPoints(lock.Idx = w). Cell i is element i of phisXY, phisYZ and phisXZ
    together; [used p] is the test of lines 272,281 on particle p and [upd p i] lines 284-308. *)
Definition potential_prog {A} (used : nat -> bool) (upd : nat -> nat -> A -> A) (np ncell W w : nat) : list (action A) :=
  flat_map (fun p => if used p then map (fun i => (i, upd p i)) (stride w W ncell) else []) (seq 0 np).

(** cmd/prof.go:386-411: worker w; intr = intrIdxs[i], idxs as in the source. Cell h is rhoSets[h] or medRhoSets[h];
    [insert j] is insertPoints or insertMedianPoints for the halo j of the snapshot. *)
Definition prof_prog {A} (insert : nat -> A -> A) (idxs intr : list nat) (W w : nat) : list (action A) :=
  map (fun jj => let j := nth jj intr 0 in (nth j idxs 0, insert j)) (stride w W (List.length intr)).
