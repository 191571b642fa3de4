(** * Inserting points into the halo grid, with rounding: cmd/halo/grid.go:17-69 (no proofs in this file).

    Every operation is the exact operation followed by a rounding of the machine (RoundModel.v). GridModel.v models the same lines without rounding; the lists and their
    readers are those of that file. *)
From Verif Require Export GridModel RoundModel.
Local Open Scope R_scope.

Section RoundGrid.
Variable M : machine.

(** grid.go:17-31 *)
Definition f_new_grid (cells : nat) (width : R) (dataLen : nat) : Grid :=
  {| g_cells := cells; g_cw := r64 M (width / r64 M (INR cells)); g_width := width; g_heads := repeat (-1)%Z (cells * cells * cells); g_next := repeat 0%Z dataLen |}.

(** grid.go:47-61 *)
Definition f_wrap1 (w x : R) : R := if Rleb w x then r64 M (x - w) else if Rltb x 0 then r64 M (x + w) else x.

(** grid.go:63-64 *)
Definition f_slice (g : Grid) (x : R) : Z := Rtrunc (r64 M (f_wrap1 (g_width g) x / g_cw g)).
Definition f_cell_idx (g : Grid) (x y z : R) : Z :=
  let c := Z.of_nat (g_cells g) in (f_slice g x + f_slice g y * c + f_slice g z * c * c)%Z.

(** grid.go:43-69 *)
Definition f_insert (g : Grid) (xs ys zs : list R) : option Grid :=
  loop (length xs) (fun i g =>
    do x <- rd xs i; do y <- rd ys i; do z <- rd zs i;
    let idx := f_cell_idx g x y z in
    do h <- at_ (g_heads g) idx;
    do next' <- wr (g_next g) i h;
    do heads' <- wrz (g_heads g) idx (Z.of_nat i);
    Some {| g_cells := g_cells g; g_cw := g_cw g; g_width := g_width g; g_heads := heads'; g_next := next' |}) g.
End RoundGrid.
