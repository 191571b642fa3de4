(** * Property C84: equal-area pixels. Floats are reals (RealBase.v). *)
From Coq Require Import Reals Lra Lia ZArith List.
From Verif Require Import PixelModel InterpProofs.
Local Open Scope R_scope.

(** ** Specification *)
(** Ring k of the disk at level l lies between the radii (2k-1)/(2l+1) and (2k+1)/(2l+1) (the centre: up to 1/(2l+1)); it is cut into 8k sectors
    (the centre is one cell). The outer edge of the disk belongs to the last ring. *)
Definition sectors (k : Z) : Z := if (k =? 0)%Z then 1%Z else (8 * k)%Z.
Definition inner (l k : Z) : R := if (k =? 0)%Z then 0 else IZR (2 * k - 1) / IZR (2 * l + 1).
Definition outer (l k : Z) : R := IZR (2 * k + 1) / IZR (2 * l + 1).
Definition is_cell (l k m : Z) : Prop := (0 <= k <= l)%Z /\ (0 <= m < sectors k)%Z.
Definition in_cell (l k m : Z) (r theta : R) : Prop :=
  inner l k <= r /\ (r < outer l k \/ (k = l /\ r = 1)) /\ IZR m * (2 * PI / IZR (sectors k)) <= theta < (IZR m + 1) * (2 * PI / IZR (sectors k)).
(** Cells are numbered ring by ring from the centre. *)
Definition cell_number (k m : Z) : Z := if (k =? 0)%Z then 0%Z else ((2 * k - 1) * (2 * k - 1) + m)%Z.
(** The area of a cell: the angle times half the difference of the squared radii. *)
Definition cell_area (l k : Z) : R := (2 * PI / IZR (sectors k)) * ((outer l k * outer l k - inner l k * inner l k) / 2).

Lemma trunc_iff x (k : Z) : 0 <= x -> Rtrunc x = k <-> IZR k <= x < IZR k + 1.
Proof.
  intros Hx. destruct (Rtrunc_pos x Hx) as (H0 & H1). split; [intros <-; exact H1|]. intros H2.
  assert (A : (Rtrunc x < k + 1)%Z) by (apply lt_IZR; rewrite plus_IZR; lra). assert (B : (k < Rtrunc x + 1)%Z) by (apply lt_IZR; rewrite plus_IZR; lra). lia.
Qed.

Lemma div_between (a b d x : R) : 0 < d -> (a / d <= x <-> a <= x * d) /\ (x < b / d <-> x * d < b).
Proof.
  intros Hd. assert (Ea : forall y, y = y / d * d) by (intros y; field; lra). split; split; intros H.
  - rewrite (Ea a). apply Rmult_le_compat_r; lra.
  - apply Rmult_le_reg_r with d; [lra|]. rewrite <- (Ea a). exact H.
  - rewrite (Ea b). apply Rmult_lt_compat_r; lra.
  - apply Rmult_lt_reg_r with d; [lra|]. rewrite <- (Ea b). exact H.
Qed.

Lemma sector_iff k m theta : (0 < k)%Z -> 0 <= theta -> Rtrunc (IZR (8 * k) * theta / (2 * PI)) = m <->
  IZR m * (2 * PI / IZR (sectors k)) <= theta < (IZR m + 1) * (2 * PI / IZR (sectors k)).
Proof.
  intros Hk Ht. unfold sectors. destruct (Z.eqb_spec k 0); [lia|]. pose proof PI_RGT_0 as Hpi. assert (Hs : 0 < IZR (8 * k)) by (apply IZR_lt; lia). set (S := IZR (8 * k)) in *. clearbody S.
  rewrite trunc_iff by (apply Rmult_le_pos; [nra|left; apply Rinv_0_lt_compat; lra]).
  destruct (div_between (IZR m * (2 * PI)) ((IZR m + 1) * (2 * PI)) S theta Hs) as (A & B).
  replace (IZR m * (2 * PI / S)) with (IZR m * (2 * PI) / S) by (field; lra). replace ((IZR m + 1) * (2 * PI / S)) with ((IZR m + 1) * (2 * PI) / S) by (field; lra).
  rewrite A, B. destruct (div_between 0 (S * theta) (2 * PI) (IZR m) ltac:(lra)) as (_ & C). destruct (div_between (S * theta) 0 (2 * PI) (IZR m) ltac:(lra)) as (C' & _).
  assert (E : forall y, (y <= S * theta / (2 * PI) <-> y * (2 * PI) <= S * theta) /\ (S * theta / (2 * PI) < y <-> S * theta < y * (2 * PI))).
  { intros y. assert (Ey : S * theta = S * theta / (2 * PI) * (2 * PI)) by (field; lra). set (q := S * theta / (2 * PI)) in *. rewrite Ey. split; split; intros H; nra. }
  destruct (E (IZR m)) as (E1 & _). destruct (E (IZR m + 1)) as (_ & E2). rewrite E1, E2. rewrite (Rmult_comm theta S). tauto.
Qed.

(** ** Disk *)
(** Every point of the disk at level l gets the number of a cell it is in (at level 0 the edge of the disk is excluded). *)
Theorem C84_disk_pixel : forall l r theta, (0 <= l)%Z -> 0 <= r <= 1 -> (l = 0%Z -> r < 1) -> 0 <= theta < 2 * PI ->
  exists k m, is_cell l k m /\ in_cell l k m r theta /\ DiskPixel r theta l = cell_number k m.
Proof.
  intros l r theta Hl Hr Hr1 Ht. pose proof PI_RGT_0 as Hpi. unfold DiskPixel.
  assert (HS : 0 < IZR (2 * l + 1)) by (apply IZR_lt; lia). set (S := IZR (2 * l + 1)) in *. set (t := Rtrunc (r * S)).
  assert (Hx : 0 <= r * S) by nra. destruct (proj1 (trunc_iff (r * S) t Hx) eq_refl) as (T1 & T2).
  assert (Ht0 : (0 <= t)%Z) by (destruct (Rtrunc_pos _ Hx); assumption).
  assert (Htl : (t <= 2 * l + 1)%Z) by (apply le_IZR; fold S; apply Rle_trans with (r * S); [exact T1|nra]).
  destruct (Z.eqb_spec t 0) as [E0|E0].
  - exists 0%Z, 0%Z. unfold is_cell, in_cell, sectors, inner, outer, cell_number. cbn [Z.eqb]. split; [lia|]. split; [|reflexivity]. split; [lra|].
    rewrite E0 in T2. split; [left; fold S; apply (div_between 0 _ S r HS); cbn; lra|]. cbn. lra.
  - set (k := if (l <=? Z.quot (t + 1) 2)%Z then l else Z.quot (t + 1) 2).
    assert (Hq : (2 * Z.quot (t + 1) 2 <= t + 1 < 2 * Z.quot (t + 1) 2 + 2)%Z).
    { rewrite Z.quot_div_nonneg by lia. pose proof (Z.div_mod (t + 1) 2 ltac:(lia)). pose proof (Z.mod_pos_bound (t + 1) 2 ltac:(lia)). lia. }
    assert (Hl1 : (1 <= l)%Z).
    { destruct (Z.eq_dec l 0) as [El|El]; [|lia]. exfalso. assert (S = 1) by (unfold S; rewrite El; reflexivity). specialize (Hr1 El). assert (1 <= IZR t) by (apply IZR_le; lia). nra. }
    assert (Hk : (1 <= k <= l)%Z /\ (2 * k - 1 <= t)%Z /\ ((t <= 2 * k)%Z \/ (k = l /\ t = 2 * l + 1)%Z)).
    { unfold k. destruct (Z.leb_spec l (Z.quot (t + 1) 2)); lia. }
    destruct Hk as (Hk & Hk1 & Hk2).
    assert (Hth : 0 <= IZR (8 * k) * theta / (2 * PI)).
    { apply Rmult_le_pos; [|left; apply Rinv_0_lt_compat; lra]. apply Rmult_le_pos; [apply IZR_le; lia|lra]. }
    exists k, (Rtrunc (IZR (8 * k) * theta / (2 * PI))).
    destruct (proj1 (sector_iff k _ theta ltac:(lia) ltac:(lra)) eq_refl) as (M1 & M2). set (m := Rtrunc (IZR (8 * k) * theta / (2 * PI))) in *.
    assert (Hm : (0 <= m < 8 * k)%Z).
    { split; [apply (Rtrunc_pos _ Hth)|]. apply lt_IZR. destruct (proj1 (trunc_iff _ m Hth) eq_refl) as (M3 & _). apply Rle_lt_trans with (1 := M3).
      assert (Hk8 : 0 < IZR (8 * k)) by (apply IZR_lt; lia). apply Rmult_lt_reg_r with (2 * PI); [lra|]. replace (IZR (8 * k) * theta / (2 * PI) * (2 * PI)) with (IZR (8 * k) * theta) by (field; lra). apply Rmult_lt_compat_l; lra. }
    assert (Es : sectors k = (8 * k)%Z) by (unfold sectors; destruct (Z.eqb_spec k 0); [lia|reflexivity]).
    split; [split; [lia|rewrite Es; exact Hm]|]. split.
    + split; [|split; [|split; assumption]].
      * unfold inner. destruct (Z.eqb_spec k 0); [lia|]. fold S. apply (div_between _ 0 S r HS). apply Rle_trans with (IZR t); [apply IZR_le; lia|exact T1].
      * destruct Hk2 as [Hk2|(Hk2 & Ht2)].
        -- left. unfold outer. fold S. apply (div_between 0 _ S r HS). apply Rlt_le_trans with (1 := T2). rewrite <- plus_IZR. apply IZR_le. lia.
        -- right. split; [exact Hk2|]. rewrite Ht2 in T1. fold S in T1. nra.
    + unfold cell_number. destruct (Z.eqb_spec k 0); [lia|]. ring.
Qed.
Print Assumptions C84_disk_pixel.

(** Cells are disjoint, ... *)
Theorem C84_cells_disjoint : forall l k m k' m' r theta, (0 <= l)%Z -> is_cell l k m -> is_cell l k' m' ->
  in_cell l k m r theta -> in_cell l k' m' r theta -> k = k' /\ m = m'.
Proof.
  intros l k m k' m' r theta Hl (Hk & Hm) (Hk' & Hm') (A1 & A2 & A3 & A4) (B1 & B2 & B3 & B4). pose proof PI_RGT_0 as Hpi.
  assert (HS : 0 < IZR (2 * l + 1)) by (apply IZR_lt; lia).
  assert (Hin : forall a b, (0 <= a)%Z -> (0 <= b <= l)%Z -> inner l b <= r -> (r < outer l a \/ (a = l /\ r = 1)) -> (b <= a)%Z).
  { intros a b Ha Hb H1 [H2|(-> & _)]; [|lia]. unfold inner, outer in *. destruct (Z.eqb_spec b 0); [lia|]. apply (div_between _ 0 _ r HS) in H1. apply (div_between 0 _ _ r HS) in H2.
    assert (H3 : (2 * b - 1 < 2 * a + 1)%Z) by (apply lt_IZR; lra). lia. }
  assert (k = k') by (specialize (Hin k k'); assert (k' <= k)%Z by (apply Hin; try lia; assumption); assert (k <= k')%Z; [|lia]; clear Hin;
    destruct B2 as [H2|(-> & _)]; [|lia]; unfold inner, outer in *; destruct (Z.eqb_spec k 0); [lia|]; apply (div_between _ 0 _ r HS) in A1; apply (div_between 0 _ _ r HS) in H2;
    assert (H3 : (2 * k - 1 < 2 * k' + 1)%Z) by (apply lt_IZR; lra); lia).
  subst k'. split; [reflexivity|]. assert (Hs : 0 < 2 * PI / IZR (sectors k)) by (apply Rdiv_lt_0_compat; [lra|apply IZR_lt; unfold sectors; destruct (Z.eqb_spec k 0); lia]).
  set (d := 2 * PI / IZR (sectors k)) in *. clearbody d.
  assert (X1 : (m < m' + 1)%Z) by (apply lt_IZR; rewrite plus_IZR; apply Rmult_lt_reg_r with d; lra). assert (X2 : (m' < m + 1)%Z) by (apply lt_IZR; rewrite plus_IZR; apply Rmult_lt_reg_r with d; lra). lia.
Qed.
Print Assumptions C84_cells_disjoint.

(** ... numbered 0, ..., DiskPixelNum-1 without gaps or repetitions, ... *)
Theorem C84_numbers : forall l, (0 <= l)%Z ->
  (forall k m, is_cell l k m -> (0 <= cell_number k m < DiskPixelNum l)%Z) /\
  (forall k m k' m', is_cell l k m -> is_cell l k' m' -> cell_number k m = cell_number k' m' -> k = k' /\ m = m') /\
  forall p, (0 <= p < DiskPixelNum l)%Z -> exists k m, is_cell l k m /\ cell_number k m = p.
Proof.
  intros l Hl. unfold DiskPixelNum.
  assert (Hr : forall k m, is_cell l k m -> ((2 * k - 1) * (2 * k - 1) <= cell_number k m \/ k = 0)%Z /\ (0 <= cell_number k m < (2 * k + 1) * (2 * k + 1))%Z).
  { intros k m (Hk & Hm). unfold cell_number, sectors in *. destruct (Z.eqb_spec k 0); subst; split; try lia; try nia. }
  split; [|split].
  - intros k m Hc. destruct (Hr k m Hc) as (_ & H2). destruct Hc as (Hk & _). split; [lia|]. apply Z.lt_le_trans with (1 := proj2 H2). nia.
  - intros k m k' m' Hc Hc' E. destruct (Hr k m Hc) as (A1 & A2). destruct (Hr k' m' Hc') as (B1 & B2). destruct Hc as (Hk & Hm). destruct Hc' as (Hk' & Hm').
    assert (k = k').
    { destruct (Z.lt_trichotomy k k') as [H|[H|H]]; [|exact H|]; exfalso.
      - assert ((2 * k + 1) * (2 * k + 1) <= (2 * k' - 1) * (2 * k' - 1))%Z by nia. lia.
      - assert ((2 * k' + 1) * (2 * k' + 1) <= (2 * k - 1) * (2 * k - 1))%Z by nia. lia. }
    subst k'. split; [reflexivity|]. unfold cell_number, sectors in *. destruct (Z.eqb_spec k 0); lia.
  - intros p Hp. destruct (Z.eq_dec p 0) as [->|Hp0].
    + exists 0%Z, 0%Z. split; [|reflexivity]. unfold is_cell, sectors. cbn. lia.
    + set (q := Z.sqrt p). pose proof (Z.sqrt_spec p ltac:(lia)) as Hq. fold q in Hq. cbv zeta in Hq. set (k := ((q + 1) / 2)%Z).
      assert (Hk : (2 * k <= q + 1 < 2 * k + 2)%Z) by (unfold k; pose proof (Z.div_mod (q + 1) 2 ltac:(lia)); pose proof (Z.mod_pos_bound (q + 1) 2 ltac:(lia)); lia).
      assert (Hq1 : (1 <= q)%Z) by (assert (0 <= q)%Z by apply Z.sqrt_nonneg; destruct (Z.eq_dec q 0) as [E|E]; [rewrite E in Hq; cbn in Hq; lia|lia]). clear Hr. clearbody k. clearbody q.
      assert (Hql : (q < 2 * l + 1)%Z).
      { apply Z.nle_gt. intros Hc.
        assert (Hmm : ((2 * l + 1) * (2 * l + 1) <= q * q)%Z).
        { apply Z.mul_le_mono_nonneg.
          all: lia. }
        lia. }
      exists k, (p - (2 * k - 1) * (2 * k - 1))%Z. unfold is_cell, cell_number, sectors. destruct (Z.eqb_spec k 0); [lia|].
      assert (Y1 : ((2 * k - 1) * (2 * k - 1) <= q * q)%Z) by (apply Z.mul_le_mono_nonneg; lia).
      assert (Y2 : (Z.succ q * Z.succ q <= (2 * k + 1) * (2 * k + 1))%Z) by (apply Z.mul_le_mono_nonneg; lia). repeat split; lia.
Qed.
Print Assumptions C84_numbers.

(** ... and all of the same area. *)
Theorem C84_disk_areas : forall l k, (0 <= k <= l)%Z -> cell_area l k = PI / IZR (DiskPixelNum l).
Proof.
  intros l k Hk. unfold cell_area, inner, outer, sectors, DiskPixelNum. assert (HS : 0 < IZR (2 * l + 1)) by (apply IZR_lt; lia).
  replace (l * 2 + 1)%Z with (2 * l + 1)%Z by ring. rewrite mult_IZR. set (S := IZR (2 * l + 1)) in *. clearbody S. destruct (Z.eqb_spec k 0) as [->|Hk0].
  - cbn. field. lra.
  - assert (Hkp : 0 < IZR k) by (apply IZR_lt; lia). rewrite minus_IZR, plus_IZR, !mult_IZR. field. split; lra.
Qed.
Print Assumptions C84_disk_areas.

(** At level 0 the edge gets the number 1, although there is one pixel. *)
Theorem C84_disk_edge_refuted : forall theta, DiskPixelNum 0 = 1%Z /\ DiskPixel 1 theta 0 = 1%Z.
Proof.
  intros theta. split; [reflexivity|]. unfold DiskPixel. assert (E : Rtrunc (1 * IZR (2 * 0 + 1)) = 1%Z) by (apply trunc_iff; cbn; lra). rewrite E. cbv zeta. change (1 =? 0)%Z with false. cbv iota. change (0 <=? Z.quot (1 + 1) 2)%Z with true. cbv iota.
  assert (E2 : Rtrunc (IZR (8 * 0) * theta / (2 * PI)) = 0%Z).
  { replace (IZR (8 * 0) * theta / (2 * PI)) with 0 by (cbn; unfold Rdiv; ring). apply trunc_iff; lra. }
  rewrite E2. reflexivity.
Qed.
Print Assumptions C84_disk_edge_refuted.

(** ** Sphere *)
(** The cells of the sphere: those of the lower hemisphere (theta > pi/2), then those of the upper one. The radius of a point in the disk is that of Lambert's
    equal-area projection: r^2 = 1 - |cos theta|. *)
Definition sphere_cell_number (lvl : Z) (upper : bool) (k m : Z) : Z := ((if upper then DiskPixelNum (lvl - 1) else 0) + cell_number k m)%Z.
Definition in_sphere_cell (lvl : Z) (upper : bool) (k m : Z) (phi theta : R) : Prop :=
  (if upper then 0 <= theta <= PI / 2 else PI / 2 < theta <= PI) /\ in_cell (lvl - 1) k m (sqrt (1 - Rabs (cos theta))) phi.

Lemma lambert theta : 0 <= theta <= PI ->
  (PI / 2 < theta -> cos (theta / 2) / cos (PI / 4) = sqrt (1 - Rabs (cos theta))) /\
  (theta <= PI / 2 -> cos ((PI - theta) / 2) / cos (PI / 4) = sqrt (1 - Rabs (cos theta))).
Proof.
  intros Ht. pose proof PI_RGT_0 as Hpi. rewrite cos_PI4. pose proof Rlt_sqrt2_0 as H2. assert (E2 : sqrt 2 * sqrt 2 = 2) by (apply sqrt_sqrt; lra).
  assert (Ed : cos theta = 2 * cos (theta / 2) * cos (theta / 2) - 1) by (replace theta with (2 * (theta / 2)) at 1 by field; apply cos_2a_cos).
  assert (Es : cos theta = 1 - 2 * sin (theta / 2) * sin (theta / 2)) by (replace theta with (2 * (theta / 2)) at 1 by field; apply cos_2a_sin).
  split; intros Hh.
  - assert (Hc : cos theta <= 0) by (apply cos_le_0; lra). rewrite Rabs_left1 by lra. assert (Hp : 0 <= cos (theta / 2)) by (apply cos_ge_0; lra).
    symmetry. apply sqrt_lem_1; [pose proof (COS_bound theta); lra| |].
    + apply Rmult_le_pos; [exact Hp|]. left. apply Rinv_0_lt_compat. apply Rdiv_lt_0_compat; lra.
    + replace (cos (theta / 2) / (1 / sqrt 2) * (cos (theta / 2) / (1 / sqrt 2))) with (cos (theta / 2) * cos (theta / 2) * (sqrt 2 * sqrt 2)) by (field; lra). rewrite E2. lra.
  - assert (Hc : 0 <= cos theta) by (apply cos_ge_0; lra). rewrite Rabs_right by lra. assert (Ec : cos ((PI - theta) / 2) = sin (theta / 2)) by (replace ((PI - theta) / 2) with (PI / 2 - theta / 2) by field; apply cos_shift).
    rewrite Ec. assert (Hp : 0 <= sin (theta / 2)) by (apply sin_ge_0; lra). symmetry. apply sqrt_lem_1; [pose proof (COS_bound theta); lra| |].
    + apply Rmult_le_pos; [exact Hp|]. left. apply Rinv_0_lt_compat. apply Rdiv_lt_0_compat; lra.
    + replace (sin (theta / 2) / (1 / sqrt 2) * (sin (theta / 2) / (1 / sqrt 2))) with (sin (theta / 2) * sin (theta / 2) * (sqrt 2 * sqrt 2)) by (field; lra). rewrite E2. lra.
Qed.

(** Every direction gets the number of a cell it is in, which is below SpherePixelNum; at level 1 the equator is excluded. *)
Theorem C84_sphere_pixel : forall lvl phi theta, (1 <= lvl)%Z -> 0 <= phi < 2 * PI -> 0 <= theta <= PI -> (lvl = 1%Z -> theta <> PI / 2) ->
  exists upper k m, is_cell (lvl - 1) k m /\ in_sphere_cell lvl upper k m phi theta /\ SpherePixel phi theta lvl = sphere_cell_number lvl upper k m /\
    (0 <= SpherePixel phi theta lvl < SpherePixelNum lvl)%Z.
Proof.
  intros lvl phi theta Hl Hp Ht Heq. pose proof PI_RGT_0 as Hpi. destruct (lambert theta Ht) as (L1 & L2). unfold SpherePixel, SpherePixelNum. destruct (Z.eqb_spec lvl 0); [lia|].
  assert (Hr : 0 <= sqrt (1 - Rabs (cos theta)) <= 1).
  { split; [apply sqrt_pos|]. rewrite <- sqrt_1 at 2. apply sqrt_le_1_alt. pose proof (Rabs_pos (cos theta)). lra. }
  assert (Hr1 : (lvl - 1)%Z = 0%Z -> sqrt (1 - Rabs (cos theta)) < 1).
  { intros E. rewrite <- sqrt_1 at 2. apply sqrt_lt_1_alt. pose proof (COS_bound theta). assert (cos theta <> 0).
    - specialize (Heq ltac:(lia)). destruct (Rlt_dec theta (PI / 2)); [assert (0 < cos theta) by (apply cos_gt_0; lra); lra|]. assert (cos theta < 0) by (apply cos_lt_0; lra). lra.
    - assert (Rabs (cos theta) <= 1) by (apply Rabs_le; lra). pose proof (Rabs_pos_lt _ H0). lra. }
  destruct (C84_disk_pixel (lvl - 1) (sqrt (1 - Rabs (cos theta))) phi ltac:(lia) Hr Hr1 Hp) as (k & m & Hc & Hin & E).
  destruct (proj1 (C84_numbers (lvl - 1) ltac:(lia)) k m Hc) as (N1 & N2).
  unfold in_sphere_cell, sphere_cell_number. destruct (Rltb (PI / 2) theta) eqn:El; [apply Rltb_true in El|apply Rltb_false in El].
  - exists false, k, m. rewrite L1 by exact El. rewrite E. split; [exact Hc|]. split; [split; [lra|exact Hin]|]. split; [lia|lia].
  - exists true, k, m. rewrite L2 by exact El. rewrite E. split; [exact Hc|]. split; [split; [lra|exact Hin]|]. split; [lia|lia].
Qed.
Print Assumptions C84_sphere_pixel.

(** At level 1 directions in the plane z = 0 get the number 2, although there are two pixels (prof mode then panics with an index out of range). *)
Theorem C84_equator_refuted : forall phi, SpherePixelNum 1 = 2%Z /\ SpherePixel phi (PI / 2) 1 = 2%Z.
Proof.
  intros phi. split; [reflexivity|]. unfold SpherePixel. cbn [Z.eqb Z.sub Z.add Z.opp Z.pos_sub Pos.eqb]. rewrite (proj2 (Rltb_false (PI / 2) (PI / 2)) ltac:(lra)).
  replace ((PI - PI / 2) / 2) with (PI / 4) by field. replace (cos (PI / 4) / cos (PI / 4)) with 1; [|rewrite cos_PI4; pose proof Rlt_sqrt2_0; field; lra].
  change (1 - 1)%Z with 0%Z. rewrite (proj2 (C84_disk_edge_refuted phi)). reflexivity.
Qed.
Print Assumptions C84_equator_refuted.

(** The solid angle of a cell of the sphere: the range of phi times the range of cos theta. With r^2 = 1 - |cos theta| the latter is that of r^2. *)
Theorem C84_solid_angles : forall lvl k, (1 <= lvl)%Z -> (0 <= k <= lvl - 1)%Z ->
  (2 * PI / IZR (sectors k)) * (outer (lvl - 1) k * outer (lvl - 1) k - inner (lvl - 1) k * inner (lvl - 1) k) = 4 * PI / IZR (SpherePixelNum lvl).
Proof.
  intros lvl k Hl Hk. pose proof (C84_disk_areas (lvl - 1) k Hk) as H. unfold cell_area in H. unfold SpherePixelNum. destruct (Z.eqb_spec lvl 0); [lia|].
  rewrite mult_IZR. assert (Hd : IZR (DiskPixelNum (lvl - 1)) <> 0) by (apply not_0_IZR; unfold DiskPixelNum; nia).
  set (A := 2 * PI / IZR (sectors k)) in *. set (D := outer (lvl - 1) k * outer (lvl - 1) k - inner (lvl - 1) k * inner (lvl - 1) k) in *.
  replace (A * D) with (2 * (A * (D / 2))) by field. rewrite H. field. exact Hd.
Qed.
Print Assumptions C84_solid_angles.

Example C84_nonvacuous : DiskPixel (1 / 2) 1 1 = cell_number 1 1 /\ in_cell 1 1 1 (1 / 2) 1 /\ is_cell 1 1 1.
Proof.
  pose proof PI_RGT_0. pose proof (PI_4). assert (H3 : 2 < PI) by (pose proof PI2_3_2; lra).
  assert (Hin : in_cell 1 1 1 (1 / 2) 1).
  { unfold in_cell, inner, outer, sectors. cbn. split; [lra|]. split; [left; lra|]. split; lra. }
  split; [|split; [exact Hin|unfold is_cell, sectors; cbn; lia]].
  destruct (C84_disk_pixel 1 (1 / 2) 1 ltac:(lia) ltac:(lra) ltac:(lra) ltac:(lra)) as (k & m & Hc & Hi & E). rewrite E.
  destruct (C84_cells_disjoint 1 k m 1 1 (1 / 2) 1 ltac:(lia) Hc) as (-> & ->); auto. unfold is_cell, sectors; cbn; lia.
Qed.
