(** * C206: the halo grid, with rounding *)
From Coq Require Import Reals Lra Lia List Bool ZArith Permutation Psatz.
From Flocq Require Import Core.
From Verif Require Import RealBase ListFacts LoopFacts InterpProofs RoundModel Props_Round Props_RoundRing GridModel GridSpec GridProofs Props_Grid RoundGridModel.
Import List ListNotations.
Local Open Scope R_scope.

(** ** Specification *)

(** One coordinate that rounding can not move to the other end of the box: it is in the box, or outside of it by less than a box width; but it is not within a relative 2^-45 of the lower side of
    the upper end, seen periodically. *)
Definition clear_coordinate (W x : R) : Prop :=
  0 <= x <= W * (1 - / 2 ^ 45) \/ W <= x <= 2 * W * (1 - / 2 ^ 45) \/ - W <= x <= - (W * / 2 ^ 45).

(** The coordinate, brought into the box, lies in the k-th of the c slices, up to the error eps. *)
Definition slice_near (W : R) (c k : nat) (x eps : R) : Prop :=
  (k < c)%nat /\ exists m : Z, let x' := x + IZR m * W in INR k * (W / INR c) - eps <= x' <= (INR k + 1) * (W / INR c) + eps.
Definition cell_near (W : R) (c idx : nat) (x y z eps : R) : Prop :=
  exists kx ky kz, idx = (kx + ky * c + kz * (c * c))%nat /\ slice_near W c kx x eps /\ slice_near W c ky y eps /\ slice_near W c kz z eps.

(** ** Proofs *)
Section Acc.
Variable M : machine.
Hypothesis HM : accurate M.

Lemma f_wrap_near W x : 0 < W -> clear_coordinate W x -> 0 <= f_wrap1 M W x <= W * (1 - / 2 ^ 47) /\ exists m : Z, Rabs (f_wrap1 M W x - (x + IZR m * W)) <= / 2 ^ 50 * W.
Proof.
  intros HW H. assert (Hv : v = / 2 ^ 52) by reflexivity. unfold f_wrap1.
  assert (PW : 0 <= / 2 ^ 50 * W) by (apply Rmult_le_pos; lra).
  destruct (Rleb W x) eqn:B1; [apply Rleb_true in B1|apply Rleb_false in B1].
  - assert (P : 0 <= x - W) by lra. pose proof (r64_rel M HM (x - W) P) as E. set (r := r64 M (x - W)) in *. clearbody r. assert (U : x - W <= W * (1 - / 2 ^ 44)) by (destruct H as [H|[H|H]]; lra).
    assert (V1 : (x - W) * v <= W * v) by (apply Rmult_le_compat_r; lra). assert (V2 : 0 <= (x - W) * v) by (apply Rmult_le_pos; lra). rewrite Hv in *.
    split; [lra|]. exists (-1)%Z. apply Rabs_le. lra.
  - destruct (Rltb x 0) eqn:B2; [apply Rltb_true in B2|apply Rltb_false in B2].
    + assert (P : 0 <= x + W) by (destruct H as [H|[H|H]]; lra). pose proof (r64_rel M HM (x + W) P) as E. set (r := r64 M (x + W)) in *. clearbody r. assert (U : x + W <= W * (1 - / 2 ^ 45)) by (destruct H as [H|[H|H]]; lra).
      assert (V1 : (x + W) * v <= W * v) by (apply Rmult_le_compat_r; lra). assert (V2 : 0 <= (x + W) * v) by (apply Rmult_le_pos; lra). rewrite Hv in *.
      split; [lra|]. exists 1%Z. apply Rabs_le. lra.
    + split; [destruct H as [H|[H|H]]; lra|]. exists 0%Z. rewrite Rmult_0_l, Rplus_0_r, Rminus_diag_eq, Rabs_R0 by reflexivity. exact PW.
Qed.

Lemma f_slice_near W c n x : 0 < W -> (0 < c)%nat -> clear_coordinate W x ->
  exists k, (k < c)%nat /\ f_slice M (f_new_grid M c W n) x = Z.of_nat k /\ slice_near W c k x (/ 2 ^ 45 * W).
Proof.
  intros HW Hc Hx. destruct (f_wrap_near W x HW Hx) as ([X0 X1] & m & Em). unfold f_slice, f_new_grid. cbn [g_width g_cw]. set (x' := f_wrap1 M W x) in *. clearbody x'. clear Hx.
  assert (Hv : v = / 2 ^ 52) by reflexivity. assert (HC : 1 <= INR c) by (apply (le_INR 1); lia).
  pose proof (r64_rel M HM (INR c) ltac:(lra)) as E1. set (C' := r64 M (INR c)) in *. clearbody C'. set (C := INR c) in *. assert (EC : C = INR c) by reflexivity. clearbody C.
  assert (PC : 0 < C') by (apply Rlt_le_trans with (C * (1 - v)); [apply Rmult_lt_0_compat; lra|exact (proj1 E1)]).
  set (b := W / C). assert (Pb : 0 < b) by (apply Rdiv_lt_0_compat; lra). assert (Eb : b * C = W) by (unfold b; field; lra).
  assert (Q1 : 0 < W / C') by (apply Rdiv_lt_0_compat; lra). assert (EQ : W / C' * C' = W) by (field; lra).
  pose proof (r64_rel M HM _ (Rlt_le _ _ Q1)) as E2. set (q1 := W / C') in *. clearbody q1. set (cw := r64 M q1) in *. clearbody cw. clearbody b.
  (* q1 within 2v of b *)
  assert (B1 : q1 <= b * (1 + 2 * v)).
  { apply (Rmult_le_reg_r C'); [exact PC|]. rewrite EQ. apply Rle_trans with (b * (1 + 2 * v) * (C * (1 - v))); [|apply Rmult_le_compat_l; [apply Rmult_le_pos; lra|lra]].
    replace (b * (1 + 2 * v) * (C * (1 - v))) with (b * C * ((1 + 2 * v) * (1 - v))) by ring. rewrite Eb. rewrite <- (Rmult_1_r W) at 1. apply Rmult_le_compat_l; [lra|]. rewrite Hv. lra. }
  assert (B2 : b * (1 - 2 * v) <= q1).
  { apply (Rmult_le_reg_r C'); [exact PC|]. rewrite EQ. apply Rle_trans with (b * (1 - 2 * v) * (C * (1 + v))); [apply Rmult_le_compat_l; [apply Rmult_le_pos; lra|lra]|].
    replace (b * (1 - 2 * v) * (C * (1 + v))) with (b * C * ((1 - 2 * v) * (1 + v))) by ring. rewrite Eb. rewrite <- (Rmult_1_r W) at 2. apply Rmult_le_compat_l; [lra|]. rewrite Hv. lra. }
  assert (B3 : cw <= b * (1 + 4 * v)).
  { apply Rle_trans with (q1 * (1 + v)); [lra|]. apply Rle_trans with (b * (1 + 2 * v) * (1 + v)); [apply Rmult_le_compat_r; lra|]. rewrite Rmult_assoc. apply Rmult_le_compat_l; [lra|]. rewrite Hv. lra. }
  assert (B4 : b * (1 - 4 * v) <= cw).
  { apply Rle_trans with (q1 * (1 - v)); [|lra]. apply Rle_trans with (b * (1 - 2 * v) * (1 - v)); [|apply Rmult_le_compat_r; lra]. rewrite Rmult_assoc. apply Rmult_le_compat_l; [lra|]. rewrite Hv. lra. }
  assert (Pcw : 0 < cw). { apply Rlt_le_trans with (b * (1 - 4 * v)); [apply Rmult_lt_0_compat; lra|exact B4]. }
  assert (Q2 : 0 <= x' / cw). { unfold Rdiv. apply Rmult_le_pos; [exact X0|]. left. apply Rinv_0_lt_compat. exact Pcw. }
  assert (EQ2 : x' / cw * cw = x') by (field; lra).
  pose proof (r64_rel M HM _ Q2) as E3. set (q0 := x' / cw) in *. clearbody q0. set (q := r64 M q0) in *. clearbody q.
  assert (Pq : 0 <= q) by (apply Rle_trans with (q0 * (1 - v)); [apply Rmult_le_pos; lra|lra]).
  assert (U : q * b * (1 - 4 * v) <= x' * (1 + v)).
  { apply Rle_trans with (q * cw); [rewrite Rmult_assoc; apply Rmult_le_compat_l; lra|]. apply Rle_trans with (q0 * (1 + v) * cw); [apply Rmult_le_compat_r; lra|]. right. rewrite <- EQ2. ring. }
  assert (L : x' * (1 - v) <= q * b * (1 + 4 * v)).
  { apply Rle_trans with (q * cw); [|rewrite Rmult_assoc; apply Rmult_le_compat_l; lra]. apply Rle_trans with (q0 * (1 - v) * cw); [right; rewrite <- EQ2; ring|]. apply Rmult_le_compat_r; lra. }
  set (y := q * b) in *. assert (Py : 0 <= y) by (apply Rmult_le_pos; lra). assert (Yd : y = q * b) by reflexivity. clearbody y.
  assert (Y2 : y <= 2 * W). { rewrite Hv in U. assert (x' * (1 + / 2 ^ 52) <= W * (1 + / 2 ^ 52)) by (apply Rmult_le_compat_r; lra). lra. }
  assert (Dy : Rabs (y - x') <= / 2 ^ 48 * W). { rewrite Hv in U, L. apply Rabs_le. lra. }
  apply Rabs_le_inv in Dy, Em.
  destruct (Rtrunc_pos q Pq) as (T0 & T1 & T2). set (z := Rtrunc q) in *. clearbody z.
  assert (Kz : z = Z.of_nat (Z.to_nat z)) by lia. assert (IK : INR (Z.to_nat z) = IZR z) by (rewrite INR_IZR_INZ, <- Kz; reflexivity).
  assert (LB : IZR z * b <= y) by (rewrite Yd; apply Rmult_le_compat_r; lra). assert (UB : y <= (IZR z + 1) * b) by (rewrite Yd; apply Rmult_le_compat_r; lra).
  assert (Kc : IZR z < C).
  { apply (Rmult_lt_reg_r b); [exact Pb|]. apply Rle_lt_trans with y; [exact LB|]. rewrite (Rmult_comm C), Eb. assert (x' * (1 + v) <= W * (1 - / 2 ^ 47) * (1 + v)) by (apply Rmult_le_compat_r; lra).
    rewrite Hv in U, H. lra. }
  exists (Z.to_nat z). split; [apply INR_lt; rewrite IK, <- EC; exact Kc|]. split; [exact Kz|]. split; [apply INR_lt; rewrite IK, <- EC; exact Kc|]. exists m. cbv zeta. rewrite IK, <- EC.
  assert (Wb : W / C = b). { rewrite <- Eb. field. lra. } rewrite Wb. split; lra.
Qed.

(** The middle of the slice. *)
Definition mid (W : R) (c n : nat) (x : R) : R := (IZR (f_slice M (f_new_grid M c W n) x) + / 2) * (W / INR c).

Lemma mid_ok W c n x : 0 < W -> (0 < c)%nat -> clear_coordinate W x -> 0 <= mid W c n x < W /\ Rtrunc (wrap1 W (mid W c n x) / (W / INR c)) = f_slice M (f_new_grid M c W n) x.
Proof.
  intros HW Hc Hx. destruct (f_slice_near W c n x HW Hc Hx) as (k & Hk & Ek & _). unfold mid. rewrite Ek, <- INR_IZR_INZ. assert (HC : 1 <= INR c) by (apply (le_INR 1); lia). pose proof (pos_INR k).
  assert (INR k + 1 <= INR c) by (rewrite <- S_INR; apply le_INR; lia). assert (Pb : 0 < W / INR c) by (apply Rdiv_lt_0_compat; lra). assert (Eb : INR c * (W / INR c) = W) by (field; lra).
  assert (R1 : 0 <= (INR k + / 2) * (W / INR c) < W).
  { split; [apply Rmult_le_pos; lra|]. rewrite <- Eb at 2. apply Rmult_lt_compat_r; lra. }
  split; [exact R1|]. unfold wrap1. rewrite (proj2 (Rleb_false _ _)) by lra. rewrite (proj2 (Rltb_false _ _)) by lra.
  replace ((INR k + / 2) * (W / INR c) / (W / INR c)) with (INR k + / 2) by (field; lra).
  destruct (Rtrunc_pos (INR k + / 2)) as (T0 & T1 & T2); [lra|].
  assert (Rtrunc (INR k + / 2) < Z.of_nat k + 1)%Z by (apply lt_IZR; rewrite plus_IZR, <- INR_IZR_INZ; lra).
  assert (Z.of_nat k < Rtrunc (INR k + / 2) + 1)%Z by (apply lt_IZR; rewrite plus_IZR, <- INR_IZR_INZ; lra). lia.
Qed.

Definition with_cw (cw : R) (g : Grid) : Grid := {| g_cells := g_cells g; g_cw := cw; g_width := g_width g; g_heads := g_heads g; g_next := g_next g |}.

Lemma rd_map {A B} (f : A -> B) l i : rd (map f l) i = option_map f (rd l i).
Proof. unfold rd. apply nth_error_map. Qed.

Lemma f_insert_eq W c n xs ys zs : 0 < W -> (0 < c)%nat -> length xs = n -> length ys = n -> length zs = n ->
  (forall i, (i < n)%nat -> clear_coordinate W (nth i xs 0) /\ clear_coordinate W (nth i ys 0) /\ clear_coordinate W (nth i zs 0)) ->
  f_insert M (f_new_grid M c W n) xs ys zs = option_map (with_cw (g_cw (f_new_grid M c W n))) (insert (new_grid c W n) (map (mid W c n) xs) (map (mid W c n) ys) (map (mid W c n) zs)).
Proof.
  intros HW Hc Lx Ly Lz Hok. unfold f_insert, insert. rewrite map_length.
  match goal with |- loop ?N ?F ?A = option_map _ (loop _ ?G ?B) => set (bf := F); set (bg := G); set (FA := A); set (GB := B) end.
  assert (K : forall k, (k <= n)%nat -> loop k bf FA = option_map (with_cw (g_cw FA)) (loop k bg GB) /\ forall g, loop k bg GB = Some g -> g_cells g = c /\ g_cw g = W / INR c /\ g_width g = W).
  { induction k as [|k IH]; intros Hk.
    - split; [reflexivity|]. intros g [= <-]. cbn. repeat split.
    - destruct (IH ltac:(lia)) as [IH1 IH2]. cbn [loop]. rewrite IH1. destruct (loop k bg GB) as [g|]; [|split; [reflexivity|discriminate]]. cbn [option_map]. destruct (IH2 g eq_refl) as (Gc & Gw & GW).
      destruct (Hok k ltac:(lia)) as (Ox & Oy & Oz). unfold bf, bg. rewrite !rd_map. rewrite !(rd_nth _ _ 0) by lia. cbn [option_map].
      assert (EI : f_cell_idx M (with_cw (g_cw FA) g) (nth k xs 0) (nth k ys 0) (nth k zs 0) = cell_idx g (mid W c n (nth k xs 0)) (mid W c n (nth k ys 0)) (mid W c n (nth k zs 0))).
      { unfold f_cell_idx, cell_idx, f_slice. cbn [with_cw g_cells g_width g_cw]. rewrite Gc, Gw, GW.
        rewrite (proj2 (mid_ok W c n _ HW Hc Ox)), (proj2 (mid_ok W c n _ HW Hc Oy)), (proj2 (mid_ok W c n _ HW Hc Oz)). reflexivity. }
      cbv zeta. rewrite EI. cbn [with_cw g_heads g_next]. destruct (at_ (g_heads g) _) as [h|]; [|split; [reflexivity|discriminate]].
      destruct (wr (g_next g) k h) as [nx|]; [|split; [reflexivity|discriminate]]. destruct (wrz (g_heads g) _ _) as [hd|]; [|split; [reflexivity|discriminate]].
      cbn [option_map]. split; [reflexivity|]. intros g' [= <-]. cbn. auto. }
  rewrite Lx. exact (proj1 (K n (le_n n))).
Qed.
End Acc.

(** ** C206 *)

(** Points whose coordinates rounding can not move to the other end of the box are inserted without a panic; every point is in exactly one cell, once; the cell contains the point, up to 2^-45 box
    widths; and the readers give the cells. *)
Theorem C206_grid_partial : forall M W c n xs ys zs, accurate M ->
  0 < W -> (0 < c)%nat -> length xs = n -> length ys = n -> length zs = n ->
  (forall i, (i < n)%nat -> clear_coordinate W (nth i xs 0) /\ clear_coordinate W (nth i ys 0) /\ clear_coordinate W (nth i zs 0)) ->
  exists g cells m,
    f_insert M (f_new_grid M c W n) xs ys zs = Some g /\
    length cells = (c * c * c)%nat /\ Permutation (concat cells) (seq 0 n) /\
    (forall k i, In i (nth k cells []) -> cell_near W c k (nth i xs 0) (nth i ys 0) (nth i zs 0) (/ 2 ^ 45 * W)) /\
    max_length g = Some m /\
    (forall k, (k < c * c * c)%nat -> grid_length g (Z.of_nat k) = Some (length (nth k cells [])) /\ read_indexes g (Z.of_nat k) m = Some (nth k cells [])).
Proof.
  intros M W c n xs ys zs HM HW Hc Lx Ly Lz Hok.
  destruct (C23_grid_partition W c n (map (mid M W c n) xs) (map (mid M W c n) ys) (map (mid M W c n) zs) HW Hc) as (g & cells & m & E & Lc & _ & P & Hin & Em & _ & _ & Hr); try (rewrite map_length; assumption).
  { intros i Hi. destruct (Hok i Hi) as (Ox & Oy & Oz). rewrite !(nth_indep _ 0 (mid M W c n 0)) by (rewrite map_length; lia). rewrite !map_nth.
    destruct (mid_ok M HM W c n _ HW Hc Ox) as [? _], (mid_ok M HM W c n _ HW Hc Oy) as [? _], (mid_ok M HM W c n _ HW Hc Oz) as [? _]. repeat split; lra. }
  exists (with_cw (g_cw (f_new_grid M c W n)) g), cells, m. rewrite (f_insert_eq M HM) by assumption. rewrite E. split; [reflexivity|]. split; [exact Lc|]. split; [exact P|]. split; [|split; [exact Em|exact Hr]].
  intros k i Hi. assert (Hi' : (i < n)%nat).
  { assert (In i (concat cells)). { apply in_concat. exists (nth k cells []). split; [|exact Hi]. destruct (Nat.lt_ge_cases k (length cells)) as [L|L]; [apply nth_In; exact L|]. rewrite nth_overflow in Hi by exact L. destruct Hi. }
    eapply Permutation_in in H; [|exact P]. apply in_seq in H. lia. }
  destruct (Hok i Hi') as (Ox & Oy & Oz). destruct (Hin k i Hi) as (kx & ky & kz & Ek & Sx & Sy & Sz). rewrite (nth_indep _ 0 (mid M W c n 0)) in Sx by (rewrite map_length; lia). rewrite (nth_indep _ 0 (mid M W c n 0)) in Sy by (rewrite map_length; lia). rewrite (nth_indep _ 0 (mid M W c n 0)) in Sz by (rewrite map_length; lia). rewrite map_nth in Sx. rewrite map_nth in Sy. rewrite map_nth in Sz.
  exists kx, ky, kz. split; [exact Ek|].
  assert (One : forall x kx, clear_coordinate W x -> slice_has W c kx (mid M W c n x) -> slice_near W c kx x (/ 2 ^ 45 * W)).
  { intros x kk Hx (Hk & mm & Hm0 & Hm1). destruct (f_slice_near M HM W c n x HW Hc Hx) as (k' & Hk' & Ek' & Sn). destruct (mid_ok M HM W c n x HW Hc Hx) as [R0 _].
    assert (mm = 0%Z). { assert (-1 < IZR mm < 1) by (split; apply (Rmult_lt_reg_r W); lra). destruct H as [H1 H2]. apply lt_IZR in H1, H2. lia. } subst mm. rewrite Rmult_0_l, Rplus_0_r in Hm1.
    unfold mid in Hm1. rewrite Ek', <- INR_IZR_INZ in Hm1. assert (Pb : 0 < W / INR c) by (apply Rdiv_lt_0_compat; [exact HW|apply lt_0_INR; exact Hc]).
    assert (k' = kk). { destruct Hm1 as [H1 H2]. apply Rmult_le_reg_r in H1; [|exact Pb]. apply Rmult_lt_reg_r in H2; [|exact Pb]. assert (INR kk < INR k' + 1) by lra. assert (INR k' < INR kk + 1) by lra. rewrite <- S_INR in H, H0. apply INR_lt in H, H0. lia. }
    subst kk. exact Sn. }
  split; [|split]; apply One; assumption.
Qed.
Print Assumptions C206_grid_partial.

(** With IEEE arithmetic, a halo that is 2^-60 below the box makes the insertion panic if it is its z coordinate, and is put into the wrong cell if it is its x coordinate. *)
Theorem C206_edge_refuted : f_insert ieee (f_new_grid ieee 2 2 1) [1] [1] [- / 2 ^ 60] = None /\
  exists g, f_insert ieee (f_new_grid ieee 2 2 1) [- / 2 ^ 60] [1 / 2] [1 / 2] = Some g /\ read_indexes g 2 1 = Some [0%nat] /\ ~ cell_near 2 2 2 (- / 2 ^ 60) (1 / 2) (1 / 2) (/ 8).
Proof.
  assert (D1 : forall r, r / 1 = r) by (intros; field).
  assert (T0 : Rtrunc (1 / 2) = 0%Z). { destruct (Rtrunc_pos (1 / 2)) as (H0 & H1 & _); [lra|]. assert (Rtrunc (1 / 2) < 1)%Z by (apply lt_IZR; lra). lia. }
  assert (T1 : Rtrunc 1 = 1%Z). { destruct (Rtrunc_pos 1) as (H0 & H1 & H2); [lra|]. assert (Rtrunc 1 <= 1)%Z by (apply le_IZR; lra). assert (1 < Rtrunc 1 + 1)%Z by (apply lt_IZR; rewrite plus_IZR; lra). lia. }
  assert (R0 : r64 ieee (1 / 2) = 1 / 2) by (apply (ieee_exact _ 1 (-1)); [cbn; lra|cbn; lia]). assert (R1 : r64 ieee 1 = 1) by (apply (ieee_exact 1 1 0); [cbn; ring|cbn; lia]). assert (R2 : r64 ieee 2 = 2) by (apply (ieee_exact 2 2 0); [cbn; ring|cbn; lia]).
  assert (Cw : g_cw (f_new_grid ieee 2 2 1) = 1). { cbn [f_new_grid g_cw]. replace (INR 2) with 2 by (cbn; ring). rewrite R2. replace (2 / 2) with 1 by field. exact R1. }
  assert (S1 : f_slice ieee (f_new_grid ieee 2 2 1) 1 = 1%Z).
  { unfold f_slice. rewrite Cw. cbn [f_new_grid g_width]. unfold f_wrap1. rewrite (proj2 (Rleb_false 2 1)) by lra. rewrite (proj2 (Rltb_false 1 0)) by lra. rewrite D1, R1. exact T1. }
  assert (S0 : f_slice ieee (f_new_grid ieee 2 2 1) (1 / 2) = 0%Z).
  { unfold f_slice. rewrite Cw. cbn [f_new_grid g_width]. unfold f_wrap1. rewrite (proj2 (Rleb_false 2 _)) by lra. rewrite (proj2 (Rltb_false _ 0)) by lra. rewrite D1, R0. exact T0. }
  assert (S2 : f_slice ieee (f_new_grid ieee 2 2 1) (- / 2 ^ 60) = 2%Z).
  { unfold f_slice. rewrite Cw. cbn [f_new_grid g_width]. unfold f_wrap1. rewrite (proj2 (Rleb_false 2 _)) by lra. rewrite (proj2 (Rltb_true _ _)) by lra. replace (- / 2 ^ 60 + 2) with (2 - / 2 ^ 60) by ring. rewrite ieee_below_two; rewrite D1, R2. exact trunc2. }
  split.
  - unfold f_insert. cbn [length loop rd nth_error]. unfold f_cell_idx. rewrite S1, S2. reflexivity.
  - unfold f_insert. cbn [length loop rd nth_error]. unfold f_cell_idx. rewrite S0, S2. eexists. split; [reflexivity|]. split; [reflexivity|].
    intros (kx & ky & kz & E & (Hx & _) & (Hy & m & Hm) & (Hz & _)). assert (ky = 1%nat) by lia. subst ky. cbv zeta in Hm. cbn [INR] in Hm.
    assert (IZR m < 1) by lra. assert (0 < IZR m) by lra. apply lt_IZR in H, H0. lia.
Qed.
Print Assumptions C206_edge_refuted.

Example C206_nonvacuous : accurate ieee /\ forall i, (i < 3)%nat -> clear_coordinate 10 (nth i [1; -2; 11] 0).
Proof. split; [exact ieee_accurate|]. unfold clear_coordinate. intros [|[|[|i]]] H; cbn [nth]; [left; lra|right; right; lra|right; left; lra|lia]. Qed.
