(** * The cells of the Bolshoi files. *)
From Coq Require Import ZArith Reals Lra List Lia Bool Permutation.
From Verif Require Export BolshoiProofs3.
Import List ListNotations.
Local Open Scope Z_scope.

Section Axis.
Context (F : bops) (val : Z -> R) (fin : Z -> Prop) (W n : Z).
Hypothesis U : unrounded F val fin W n.
Hypothesis Hn : 0 < n.
Hypothesis HW : (0 < val W)%R.

Lemma slab_iff i x : 0 <= i < n -> fin x -> (in_slab F W n i x = true <-> (IZR i * val W / IZR n < val x <= IZR (i + 1) * val W / IZR n)%R).
Proof.
  intros Hi Hx. unfold in_slab. destruct (un_lower _ _ _ _ _ U i Hi) as (F1 & V1). destruct (un_upper _ _ _ _ _ U i Hi) as (F2 & V2).
  rewrite andb_true_iff, (un_lt _ _ _ _ _ U _ _ F1 Hx), (un_le _ _ _ _ _ U _ _ Hx F2), V1, V2. reflexivity.
Qed.

Lemma slab_scaled i x : (IZR i * val W / IZR n < val x <= IZR (i + 1) * val W / IZR n <-> IZR i < val x * IZR n / val W <= IZR i + 1)%R.
Proof.
  assert (Hnr : (0 < IZR n)%R) by (apply IZR_lt; lia). rewrite plus_IZR.
  assert (E : (val x = (val x * IZR n / val W) * (val W / IZR n))%R) by (field; lra).
  assert (Hp : (0 < val W / IZR n)%R) by (apply Rdiv_lt_0_compat; lra).
  set (r := (val x * IZR n / val W)%R) in *. set (d := (val W / IZR n)%R) in *.
  replace (IZR i * val W / IZR n)%R with (IZR i * d)%R by (unfold d; field; lra).
  replace ((IZR i + 1) * val W / IZR n)%R with ((IZR i + 1) * d)%R by (unfold d; field; lra). rewrite E. clearbody r d. clear E.
  split; intros (A & B); split.
  - apply Rmult_lt_reg_r with d; assumption.
  - apply Rmult_le_reg_r with d; assumption.
  - apply Rmult_lt_compat_r; assumption.
  - apply Rmult_le_compat_r; lra.
Qed.

Lemma slab_unique i j x : 0 <= i < n -> 0 <= j < n -> fin x -> in_slab F W n i x = true -> in_slab F W n j x = true -> i = j.
Proof.
  intros Hi Hj Hx A B. apply slab_iff in A; [|exact Hi|exact Hx]. apply slab_iff in B; [|exact Hj|exact Hx]. apply slab_scaled in A. apply slab_scaled in B.
  rewrite <- !plus_IZR in *. assert (IZR i < IZR (j + 1))%R by lra. assert (IZR j < IZR (i + 1))%R by lra.
  apply lt_IZR in H. apply lt_IZR in H0. lia.
Qed.

Lemma slab_exists x : fin x -> (0 < val x <= val W)%R -> exists i, 0 <= i < n /\ in_slab F W n i x = true.
Proof.
  intros Hx (H0 & H1). assert (Hnr : (0 < IZR n)%R) by (apply IZR_lt; lia). set (r := (val x * IZR n / val W)%R).
  assert (Hr : (0 < r <= IZR n)%R).
  { unfold r. split; [apply Rdiv_lt_0_compat; [apply Rmult_lt_0_compat; lra|lra]|].
    apply Rmult_le_reg_r with (val W); [lra|]. replace (val x * IZR n / val W * val W)%R with (val x * IZR n)%R by (field; lra). 
    rewrite (Rmult_comm (IZR n)). apply Rmult_le_compat_r; lra. }
  destruct (archimed (- r)) as (A & B). set (k := up (- r)) in *. exists (- k).
  assert (R1 : (IZR (- k) < r)%R) by (rewrite opp_IZR; lra). assert (R2 : (r <= IZR (- k) + 1)%R) by (rewrite opp_IZR; lra).
  assert (Hi : 0 <= - k < n).
  { split.
    - assert (0 < IZR (- k + 1))%R by (rewrite plus_IZR; lra). apply lt_IZR in H. lia.
    - apply lt_IZR. lra. }
  split; [exact Hi|]. apply slab_iff; [exact Hi|exact Hx|]. apply slab_scaled. split; assumption.
Qed.

Lemma slab_zero i x : 0 <= i < n -> fin x -> (val x <= 0)%R -> in_slab F W n i x = false.
Proof.
  intros Hi Hx H0. apply not_true_iff_false. intros A. apply slab_iff in A; [|exact Hi|exact Hx]. destruct A as (A & _).
  assert (0 <= IZR i * val W / IZR n)%R; [|lra]. apply Rmult_le_pos; [apply Rmult_le_pos; [apply IZR_le; lia|lra]|]. apply Rlt_le, Rinv_0_lt_compat, IZR_lt. lia.
Qed.
End Axis.

Lemma file_cell F W Nx Ny Nz ix iy iz x : 0 <= ix < Nx -> 0 <= iy < Ny -> 0 <= iz -> in_file_cell F W Nx Ny Nz (cell_number Nx Ny ix iy iz) x = in_cell F W Nx Ny Nz ix iy iz x.
Proof. intros Hx Hy Hz. unfold in_file_cell. destruct (cell_number_inv Nx Ny ix iy iz Hx Hy Hz) as (-> & -> & ->). reflexivity. Qed.

Lemma cell_number_range Nx Ny Nz ix iy iz : 0 <= ix < Nx -> 0 <= iy < Ny -> 0 <= iz < Nz -> 1 <= cell_number Nx Ny ix iy iz <= Nx * Ny * Nz.
Proof.
  intros Hx Hy Hz. unfold cell_number. assert (0 <= Ny * iz) by (apply Z.mul_nonneg_nonneg; lia). assert (0 <= Nx * (iy + Ny * iz)) by (apply Z.mul_nonneg_nonneg; lia).
  split; [lia|]. assert (iy + Ny * iz + 1 <= Ny * Nz) by nia. assert (Nx * (iy + Ny * iz + 1) <= Nx * (Ny * Nz)) by (apply Z.mul_le_mono_nonneg_l; lia). lia.
Qed.

Section Cells.
Context (F : bops) (val : Z -> R) (fin : Z -> Prop) (W Nx Ny Nz : Z).
Hypothesis Ux : unrounded F val fin W Nx.
Hypothesis Uy : unrounded F val fin W Ny.
Hypothesis Uz : unrounded F val fin W Nz.
Hypothesis HN : 0 < Nx /\ 0 < Ny /\ 0 < Nz.
Hypothesis HW : (0 < val W)%R.

Lemma cell_exists x : inside val fin W x -> exists K, 1 <= K <= Nx * Ny * Nz /\ in_file_cell F W Nx Ny Nz K x = true.
Proof.
  intros Hin. destruct HN as (Nx0 & Ny0 & Nz0).
  destruct (Hin 0%nat ltac:(lia)) as (F0 & V0). destruct (Hin 1%nat ltac:(lia)) as (F1 & V1). destruct (Hin 2%nat ltac:(lia)) as (F2 & V2).
  destruct (slab_exists F val fin W Nx Ux Nx0 HW _ F0 V0) as (ix & Ix & Sx). destruct (slab_exists F val fin W Ny Uy Ny0 HW _ F1 V1) as (iy & Iy & Sy).
  destruct (slab_exists F val fin W Nz Uz Nz0 HW _ F2 V2) as (iz & Iz & Sz).
  exists (cell_number Nx Ny ix iy iz). split; [now apply cell_number_range|]. rewrite file_cell by lia. unfold in_cell. now rewrite Sx, Sy, Sz.
Qed.

Lemma cell_unique x K K' : inside val fin W x -> 1 <= K <= Nx * Ny * Nz -> 1 <= K' <= Nx * Ny * Nz ->
  in_file_cell F W Nx Ny Nz K x = true -> in_file_cell F W Nx Ny Nz K' x = true -> K = K'.
Proof.
  intros Hin HK HK' A B. destruct HN as (Nx0 & Ny0 & Nz0).
  destruct (cell_split Nx Ny Nz K Nx0 Ny0 Nz0 HK) as (ix & iy & iz & -> & Ix & Iy & Iz). destruct (cell_split Nx Ny Nz K' Nx0 Ny0 Nz0 HK') as (jx & jy & jz & -> & Jx & Jy & Jz).
  rewrite file_cell in A, B by lia. unfold in_cell in A, B. apply andb_prop in A as (A & Az). apply andb_prop in A as (Ax & Ay).
  apply andb_prop in B as (B & Bz). apply andb_prop in B as (Bx & By).
  destruct (Hin 0%nat ltac:(lia)) as (F0 & _). destruct (Hin 1%nat ltac:(lia)) as (F1 & _). destruct (Hin 2%nat ltac:(lia)) as (F2 & _).
  rewrite (slab_unique F val fin W Nx Ux Nx0 HW ix jx _ Ix Jx F0 Ax Bx), (slab_unique F val fin W Ny Uy Ny0 HW iy jy _ Iy Jy F1 Ay By),
    (slab_unique F val fin W Nz Uz Nz0 HW iz jz _ Iz Jz F2 Az Bz). reflexivity.
Qed.
End Cells.

(** Sorting elements into classes loses nothing. *)
Lemma classes_perm {A} (f : Z -> A -> bool) (Ks : list Z) (P : list A) : NoDup Ks ->
  (forall p, In p P -> exists K, In K Ks /\ f K p = true /\ forall K', In K' Ks -> f K' p = true -> K' = K) ->
  Permutation (flat_map (fun K => filter (f K) P) Ks) P.
Proof.
  intros HK. induction P as [|p P IH]; intros H.
  - assert (E : flat_map (fun K => filter (f K) []) Ks = []) by (clear; induction Ks; [reflexivity|exact IHKs]). rewrite E. constructor.
  - destruct (H p (or_introl eq_refl)) as (K & HKs & Hf & Hu). apply in_split in HKs. destruct HKs as (K1 & K2 & ->).
    assert (Hother : forall L, (forall K', In K' L -> In K' (K1 ++ K :: K2) /\ K' <> K) -> flat_map (fun K => filter (f K) (p :: P)) L = flat_map (fun K => filter (f K) P) L).
    { induction L as [|a L IHL]; intros HL; [reflexivity|]. cbn [flat_map]. rewrite IHL by (intros; apply HL; now right). cbn [filter].
      destruct (f a p) eqn:E; [|reflexivity]. exfalso. destruct (HL a (or_introl eq_refl)) as (Ha & Hne). apply Hne. now apply Hu. }
    pose proof (NoDup_remove_2 _ _ _ HK) as Hnot.
    rewrite flat_map_app. cbn [flat_map].
    rewrite !Hother.
    + cbn [filter]. rewrite Hf. cbn [app]. rewrite <- Permutation_middle. apply perm_skip. 
      assert (Permutation (flat_map (fun K => filter (f K) P) (K1 ++ K :: K2)) P) as Q by (apply IH; intros q Hq; apply H; now right).
      rewrite flat_map_app in Q. exact Q.
    + intros K' Hi. split; [apply in_or_app; right; now right|]. intros ->. apply Hnot. apply in_or_app. now right.
    + intros K' Hi. split; [apply in_or_app; now left|]. intros ->. apply Hnot. apply in_or_app. now left.
Qed.

Lemma file_numbers_in n K : In K (file_numbers n) <-> 1 <= K <= n.
Proof.
  unfold file_numbers. rewrite in_map_iff. split.
  - intros (k & <- & Hk). apply in_seq in Hk. lia.
  - intros H. exists (Z.to_nat K). split; [lia|]. apply in_seq. lia.
Qed.
Lemma file_numbers_nodup n : NoDup (file_numbers n).
Proof. unfold file_numbers. apply NoDup_map_in; [apply seq_NoDup|]. intros a b _ _ H. lia. Qed.

Lemma flat_map_perm {A B} (f g : A -> list B) l : (forall a, In a l -> Permutation (f a) (g a)) -> Permutation (flat_map f l) (flat_map g l).
Proof.
  induction l as [|a l IH]; intros H; [constructor|]. cbn [flat_map]. apply Permutation_app; [apply H; now left|]. apply IH. intros b Hb. apply H. now right.
Qed.
