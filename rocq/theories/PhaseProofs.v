(** * Phase-space profiles: proofs. *)
From Verif Require Props_Prof KdeProofs2 KdeProofs4.
From Verif Require Import PhaseModel PhaseSpec LosSpec LoopFacts RealBase InterpProofs KdeProofs Props_Pixel ProfProofs ProfSpec AccumProofs RockstarProofs.
From Coq Require Import ZArith Reals List Lia Lra Permutation.
Import List ListNotations.
Local Open Scope R_scope.

(** ** tally *)
Lemma tally_app P a b x y : tally P a x -> tally P b y -> tally P (a ++ b) (x + y).
Proof.
  induction 1; intros Hb; cbn [app].
  - replace (0 + y) with y by ring. exact Hb.
  - replace (snd p + m + y) with (snd p + (m + y)) by ring. constructor; auto.
  - constructor 3; auto.
Qed.
Lemma tally_fun P l x y : tally P l x -> tally P l y -> x = y.
Proof. intros H. revert y. induction H; intros y Hy; inversion Hy; subst; try contradiction; try reflexivity; [f_equal|]; auto. Qed.
Lemma tally_none (P : particle -> Prop) l : (forall p, In p l -> ~ P p) -> tally P l 0.
Proof. induction l as [|p l IH]; intros H; [constructor|]. constructor 3; [apply H; now left|apply IH; intros; apply H; now right]. Qed.
Lemma tally_ext (P Q : particle -> Prop) l m : (forall p, In p l -> P p <-> Q p) -> tally P l m -> tally Q l m.
Proof.
  intros H T. revert H. induction T; intros H'; [constructor|constructor 2|constructor 3]; try (apply IHT; intros; apply H'; now right).
  - apply H'; [now left|assumption]. - rewrite <- (H' p (or_introl eq_refl)). assumption.
Qed.

(** ** bins *)
Lemma bin_trunc lo w k x : 0 < w -> lo <= x \/ x <= lo - w -> Rtrunc ((x - lo) / w) = Z.of_nat k <-> bin lo w k x.
Proof.
  intros Hw Hx. unfold bin. rewrite S_INR.
  assert (Ey : x = lo + (x - lo) / w * w) by (field; lra). set (y := (x - lo) / w) in *. clearbody y.
  destruct Hx as [Hx|Hx].
  - assert (0 <= y) by nra. rewrite trunc_iff by assumption. rewrite INR_IZR_INZ. split; intros (A & B); split; nra.
  - assert (Hy : y <= -1) by nra. split.
    + intros E. exfalso. unfold Rtrunc in E. destruct (Rle_dec 0 y); [lra|]. destruct (base_Int_part (- y)) as [H1 H2].
      assert (0 < IZR (Int_part (- y))) by lra. apply lt_IZR in H. lia.
    + intros (A & B). exfalso. pose proof (pos_INR k). nra.
Qed.
Lemma bin_unique lo w j k x : 0 < w -> bin lo w j x -> bin lo w k x -> j = k.
Proof.
  intros Hw (A & B) (C & D). rewrite S_INR in *. assert (INR j < INR k + 1) by nra. assert (INR k < INR j + 1) by nra.
  rewrite <- S_INR in *. apply INR_lt in H, H0. lia.
Qed.
Lemma bin_exists lo w n x : 0 < w -> lo <= x < lo + INR n * w -> exists k, (k < n)%nat /\ bin lo w k x.
Proof.
  intros Hw (H0 & H1). assert (Hy : 0 <= (x - lo) / w) by (apply Rmult_le_pos; [lra|left; now apply Rinv_0_lt_compat]).
  destruct (Rtrunc_pos _ Hy) as (A & _). exists (Z.to_nat (Rtrunc ((x - lo) / w))).
  assert (Hb : bin lo w (Z.to_nat (Rtrunc ((x - lo) / w))) x) by (apply bin_trunc; [exact Hw|now left|lia]).
  split; [|exact Hb]. destruct Hb as (B & _). apply INR_lt. nra.
Qed.

(** ** One particle *)
Section Point.
Variables (nan : Z) (c : PhaseConf) (s : PSphere) (L : R).
Hypothesis Hnr : (0 < hc_rbins c)%nat.
Hypothesis Hnv : (0 < hc_vbins c)%nat.
Hypothesis HR : 0 < p_R s.
Hypothesis HV : 0 < p_V s.

Definition cell (j k : nat) (p : particle) : Prop :=
  phase_cell (hc_radial c) (hc_sub c) (p_c s) (p_v s) (p_R s) (p_V s) (hc_rbins c) (hc_vbins c) j k p.

(** Radial profiles: particles at the centre have no radial velocity, and those that fall in slightly faster than VMaxMult V are put in the first bin. *)
Definition regular (p : particle) : Prop :=
  hc_radial c = true -> sqrt (dist2_3 (fst (fst p)) (p_c s)) < p_R s ->
  fst (fst p) <> p_c s /\
  let v := radial_velocity (hc_sub c) (p_c s) (p_v s) p in - p_V s <= v \/ v <= - p_V s - 2 * p_V s / INR (hc_vbins c).

Lemma phase_point_ok x v m rhos : in_half_box L (p_c s) x -> regular (x, v, m) -> length rhos = (hc_rbins c * hc_vbins c)%nat ->
  exists rhos', phase_point nan c s L x v m rhos = Some rhos' /\ length rhos' = (hc_rbins c * hc_vbins c)%nat /\
    forall j k, (j < hc_rbins c)%nat -> (k < hc_vbins c)%nat ->
      (cell j k (x, v, m) -> nth (j * hc_vbins c + k) rhos' 0 = nth (j * hc_vbins c + k) rhos 0 + m) /\
      (~ cell j k (x, v, m) -> nth (j * hc_vbins c + k) rhos' 0 = nth (j * hc_vbins c + k) rhos 0).
Proof.
  intros Hbox Hreg HL. assert (Hn : 0 < INR (hc_rbins c)) by (apply lt_0_INR; exact Hnr). assert (Hn' : 0 < INR (hc_vbins c)) by (apply lt_0_INR; exact Hnv).
  assert (Hdr : 0 < p_R s / INR (hc_rbins c)) by (apply Rdiv_lt_0_compat; assumption).
  unfold phase_point. cbv zeta. unfold cell, phase_cell, regular in *. cbn [fst snd] in *.
  destruct (p_c s) as ((x0, y0), z0) eqn:Ec. destruct (p_v s) as ((vx0, vy0), vz0) eqn:Ev. destruct x as ((a, b), d). destruct v as ((vx, vy), vz).
  destruct Hbox as (B1 & B2 & B3). rewrite !wrap_id by assumption.
  unfold dist2_3 in *. set (r2 := (a - x0) * (a - x0) + (b - y0) * (b - y0) + (d - z0) * (d - z0)) in *.
  assert (Hr2 : 0 <= r2) by (unfold r2; pose proof (Rle_0_sqr (a - x0)); pose proof (Rle_0_sqr (b - y0)); pose proof (Rle_0_sqr (d - z0)); unfold Rsqr in *; lra).
  pose proof (sqrt_pos r2) as Hr0. pose proof (sqrt_sqrt r2 Hr2) as Hrr. set (r := sqrt r2) in *.
  destruct (Rleb (p_R s * p_R s) r2) eqn:Ein.
  { apply Rleb_true in Ein. assert (p_R s <= r) by nra. exists rhos. split; [reflexivity|]. split; [exact HL|]. intros j k Hj Hk. split; [|reflexivity].
    intros ((_ & Hb) & _). exfalso. assert (INR (S j) <= INR (hc_rbins c)) by (apply le_INR; lia).
    assert (INR (S j) * (p_R s / INR (hc_rbins c)) <= INR (hc_rbins c) * (p_R s / INR (hc_rbins c))) by nra.
    assert (Eq : INR (hc_rbins c) * (p_R s / INR (hc_rbins c)) = p_R s) by (field; lra). lra. }
  apply Rleb_false in Ein. assert (HrR : r < p_R s) by nra.
  (* the radial bin *)
  destruct (bin_exists 0 (p_R s / INR (hc_rbins c)) (hc_rbins c) r Hdr) as (j0 & Hj0 & Hb0).
  { split; [exact Hr0|]. replace (0 + INR (hc_rbins c) * (p_R s / INR (hc_rbins c))) with (p_R s) by (field; lra). exact HrR. }
  assert (Eir : Rtrunc (r / (p_R s / INR (hc_rbins c))) = Z.of_nat j0).
  { replace (r / (p_R s / INR (hc_rbins c))) with ((r - 0) / (p_R s / INR (hc_rbins c))) by (f_equal; ring). apply bin_trunc; [exact Hdr|now left|exact Hb0]. }
  rewrite Eir. destruct (Z.eqb_spec (Z.of_nat j0) (Z.of_nat (hc_rbins c))) as [?|_]; [lia|].
  (* the velocity bin *)
  match goal with |- context [((if hc_radial c then ?A else ?B) >=? _)%Z] => set (iv := if hc_radial c then A else B) end.
  assert (Hiv : forall k, (k < hc_vbins c)%nat -> iv = Z.of_nat k <->
    if hc_radial c then bin (- p_V s) (2 * p_V s / INR (hc_vbins c)) k (radial_velocity (hc_sub c) (x0, y0, z0) (vx0, vy0, vz0) (a, b, d, (vx, vy, vz), m))
    else bin 0 (p_V s / INR (hc_vbins c)) k (total_velocity (hc_sub c) (x0, y0, z0) (vx0, vy0, vz0) (a, b, d, (vx, vy, vz), m))).
  { intros k Hk. unfold iv. unfold v_min. destruct (hc_radial c) eqn:Et.
    - destruct (Hreg eq_refl HrR) as (Hne & Hv). destruct (Req_EM_T r 0) as [E0|Hr].
      { exfalso. apply Hne. assert (r2 = 0) by nra. pose proof (Rle_0_sqr (a - x0)); pose proof (Rle_0_sqr (b - y0)); pose proof (Rle_0_sqr (d - z0)); unfold Rsqr in *.
        unfold r2 in H. assert (a - x0 = 0) by nra. assert (b - y0 = 0) by nra. assert (d - z0 = 0) by nra. f_equal; [f_equal|]; lra. }
      assert (Erv : (if hc_sub c then ((vx - vx0) * (a - x0) + (vy - vy0) * (b - y0) + (vz - vz0) * (d - z0)) / r - r * 70 else ((vx - vx0) * (a - x0) + (vy - vy0) * (b - y0) + (vz - vz0) * (d - z0)) / r)
        = radial_velocity (hc_sub c) (x0, y0, z0) (vx0, vy0, vz0) (a, b, d, (vx, vy, vz), m)).
      { unfold radial_velocity, rel_velocity. cbn [fst snd]. unfold minus3, scale3, dot3. fold r2. fold r. destruct (hc_sub c); [|reflexivity].
        rewrite (Rmult_comm r 70). replace (70 * r) with (70 * r2 / r) by (rewrite <- Hrr; field; exact Hr). unfold r2. field. exact Hr. }
      rewrite Erv. set (w := radial_velocity _ _ _ _) in *. replace (p_V s - - p_V s) with (2 * p_V s) by ring. apply bin_trunc; [apply Rdiv_lt_0_compat; lra|exact Hv].
    - assert (Erv : (let '(vx1, vy1, vz1) := if hc_sub c then (vx - vx0 - 70 * (a - x0), vy - vy0 - 70 * (b - y0), vz - vz0 - 70 * (d - z0)) else (vx - vx0, vy - vy0, vz - vz0) in
          Rtrunc ((sqrt (vx1 * vx1 + vy1 * vy1 + vz1 * vz1) - 0) / ((p_V s - 0) / INR (hc_vbins c)))) =
        Rtrunc ((total_velocity (hc_sub c) (x0, y0, z0) (vx0, vy0, vz0) (a, b, d, (vx, vy, vz), m) - 0) / (p_V s / INR (hc_vbins c)))).
      { rewrite Rminus_0_r with (r := p_V s). unfold total_velocity, rel_velocity. unfold minus3, scale3, dot3. now destruct (hc_sub c). }
      rewrite Erv. apply bin_trunc; [apply Rdiv_lt_0_compat; lra|]. left. unfold total_velocity. apply sqrt_pos. }
  clearbody iv.
  assert (Hcell : forall j k, (j < hc_rbins c)%nat -> (k < hc_vbins c)%nat ->
    (bin 0 (p_R s / INR (hc_rbins c)) j r /\
     (if hc_radial c then bin (- p_V s) (2 * p_V s / INR (hc_vbins c)) k (radial_velocity (hc_sub c) (x0, y0, z0) (vx0, vy0, vz0) (a, b, d, (vx, vy, vz), m))
      else bin 0 (p_V s / INR (hc_vbins c)) k (total_velocity (hc_sub c) (x0, y0, z0) (vx0, vy0, vz0) (a, b, d, (vx, vy, vz), m)))) <-> j = j0 /\ iv = Z.of_nat k).
  { intros j k Hj Hk. rewrite <- Hiv by exact Hk. split; intros (A & B); split; auto.
    - exact (bin_unique _ _ _ _ _ Hdr A Hb0). - subst. exact Hb0. }
  destruct (Z.geb_spec iv (Z.of_nat (hc_vbins c))) as [Hge|Hlt]; [|destruct (Z.ltb_spec iv 0) as [Hlt0|Hge0]].
  1,2: exists rhos; split; [reflexivity|]; split; [exact HL|]; intros j k Hj Hk; split; [|reflexivity]; intros Hc; apply Hcell in Hc; [lia|assumption|assumption].
  cbn [orb]. destruct (Z.ltb_spec (Z.of_nat j0 * Z.of_nat (hc_vbins c) + iv) 0) as [?|_]; [nia|].
  assert (Ei : Z.to_nat (Z.of_nat j0 * Z.of_nat (hc_vbins c) + iv) = (j0 * hc_vbins c + Z.to_nat iv)%nat) by nia. rewrite Ei.
  assert (Hlt' : (j0 * hc_vbins c + Z.to_nat iv < length rhos)%nat) by (rewrite HL; nia).
  rewrite (rd_nth rhos _ 0) by exact Hlt'. destruct (wr_some rhos (j0 * hc_vbins c + Z.to_nat iv) (nth (j0 * hc_vbins c + Z.to_nat iv) rhos 0 + m) 0 Hlt') as (l' & Ew & Lw & Nw).
  exists l'. split; [exact Ew|]. split; [congruence|]. intros j k Hj Hk. rewrite Nw. split.
  - intros Hc. apply Hcell in Hc; [|assumption|assumption]. destruct Hc as (-> & ->). rewrite Nat2Z.id, Nat.eqb_refl. reflexivity.
  - intros Hc. destruct (Nat.eqb_spec (j * hc_vbins c + k) (j0 * hc_vbins c + Z.to_nat iv)) as [E|]; [|reflexivity]. exfalso. apply Hc, Hcell; [assumption|assumption|].
    assert (j = j0) by nia. subst j. split; [reflexivity|lia].
Qed.
End Point.

(** ** All particles of a file *)
Definition particles_of (xs vs : list vec3) (ms : list R) : list particle := combine (combine xs vs) ms.

Lemma particles_nth xs vs ms i : length vs = length xs -> length ms = length xs -> nth i (particles_of xs vs ms) (0, 0, 0, (0, 0, 0), 0) = (nth i xs (0, 0, 0), nth i vs (0, 0, 0), nth i ms 0).
Proof. intros. unfold particles_of. change particle with (vec3 * vec3 * R)%type. rewrite combine_nth by (rewrite combine_length; lia). rewrite combine_nth by lia. reflexivity. Qed.
Lemma particles_length xs vs ms : length vs = length xs -> length ms = length xs -> length (particles_of xs vs ms) = length xs.
Proof. intros. unfold particles_of. change particle with (vec3 * vec3 * R)%type. rewrite !combine_length. lia. Qed.

Section Points.
Variables (nan : Z) (c : PhaseConf) (s : PSphere) (L : R).
Hypothesis Hnr : (0 < hc_rbins c)%nat.
Hypothesis Hnv : (0 < hc_vbins c)%nat.
Hypothesis HR : 0 < p_R s.
Hypothesis HV : 0 < p_V s.

Lemma phase_points_ok xs vs ms rhos : length vs = length xs -> length ms = length xs ->
  (forall p, In p (particles_of xs vs ms) -> in_half_box L (p_c s) (fst (fst p)) /\ regular c s p) ->
  length rhos = (hc_rbins c * hc_vbins c)%nat ->
  exists rhos', phase_points nan c s L xs vs ms rhos = Some rhos' /\ length rhos' = (hc_rbins c * hc_vbins c)%nat /\
    forall j k, (j < hc_rbins c)%nat -> (k < hc_vbins c)%nat -> exists gain,
      tally (cell c s j k) (particles_of xs vs ms) gain /\ nth (j * hc_vbins c + k) rhos' 0 = nth (j * hc_vbins c + k) rhos 0 + gain.
Proof.
  intros Lv Lm Hp HL. unfold phase_points. set (ps := particles_of xs vs ms) in *. set (dp := ((0, 0, 0, (0, 0, 0), 0) : particle)).
  assert (Lp : length ps = length xs) by now apply particles_length.
  destruct (loop_inv (fun i rh => length rh = (hc_rbins c * hc_vbins c)%nat /\ forall j k, (j < hc_rbins c)%nat -> (k < hc_vbins c)%nat -> exists gain,
      tally (cell c s j k) (firstn i ps) gain /\ nth (j * hc_vbins c + k) rh 0 = nth (j * hc_vbins c + k) rhos 0 + gain) (length xs)
    (fun i rhos => do x <- rd xs i; do v <- rd vs i; do m <- rd ms i; phase_point nan c s L x v m rhos) rhos) as (r' & E & L' & H).
  - split; [exact HL|]. intros j k Hj Hk. exists 0. split; [constructor|ring].
  - intros i rh Hi (Lr & HI). rewrite (rd_nth xs i (0, 0, 0)), (rd_nth vs i (0, 0, 0)), (rd_nth ms i 0) by lia.
    assert (Hin : In (nth i ps dp) ps) by (apply nth_In; lia). destruct (Hp _ Hin) as (Hb & Hr). unfold ps, dp in Hb, Hr. rewrite particles_nth in Hb, Hr by assumption. cbn [fst] in Hb.
    destruct (phase_point_ok nan c s L Hnr Hnv HR HV _ _ _ rh Hb Hr Lr) as (r1 & E1 & L1 & H1). exists r1. split; [exact E1|]. split; [exact L1|].
    intros j k Hj Hk. destruct (HI j k Hj Hk) as (g & Tg & Eg). destruct (H1 j k Hj Hk) as (Hy & Hn).
    rewrite (KdeProofs2.firstn_snoc ps i dp) by lia. unfold ps at 2, dp. rewrite particles_nth by assumption.
    set (p := (nth i xs (0, 0, 0), nth i vs (0, 0, 0), nth i ms 0)) in *.
    destruct (Classical_Prop.classic (cell c s j k p)) as [Hc|Hc].
    + exists (g + (nth i ms 0 + 0)). split; [apply tally_app; [exact Tg|]; apply (tally_yes _ p); [exact Hc|constructor]|]. rewrite (Hy Hc), Eg. ring.
    + exists (g + 0). split; [apply tally_app; [exact Tg|]; apply tally_no; [exact Hc|constructor]|]. rewrite (Hn Hc), Eg. ring.
  - exists r'. split; [exact E|]. split; [exact L'|]. intros j k Hj Hk. destruct (H j k Hj Hk) as (g & Tg & Eg). exists g. split; [|exact Eg].
    rewrite firstn_all2 in Tg by lia. exact Tg.
Qed.
End Points.

(** ** Densities *)
Definition vmin_of (c : PhaseConf) (vMax : R) : R := if hc_radial c then - vMax else 0.
Definition vwidth (c : PhaseConf) (vMax : R) : R := if hc_radial c then 2 * vMax / INR (hc_vbins c) else vMax / INR (hc_vbins c).

Lemma process_phase_ok c rhos rMax vMax : (0 < hc_rbins c)%nat -> (0 < hc_vbins c)%nat -> 0 < rMax -> 0 < vMax -> length rhos = (hc_rbins c * hc_vbins c)%nat ->
  exists rs vs out, process_phase c rhos rMax vMax = Some (rs, vs, out) /\ length rs = hc_rbins c /\ length vs = hc_vbins c /\ length out = (hc_rbins c * hc_vbins c)%nat /\
    (forall j, (j < hc_rbins c)%nat -> nth j rs 0 = (INR j + 1 / 2) * (rMax / INR (hc_rbins c))) /\
    (forall k, (k < hc_vbins c)%nat -> nth k vs 0 = vmin_of c vMax + (INR k + 1 / 2) * vwidth c vMax) /\
    forall j k, (j < hc_rbins c)%nat -> (k < hc_vbins c)%nat ->
      nth (j * hc_vbins c + k) out 0 * (shell_volume (INR j * (rMax / INR (hc_rbins c))) (INR (S j) * (rMax / INR (hc_rbins c))) * vwidth c vMax) = nth (j * hc_vbins c + k) rhos 0.
Proof.
  intros Hnr Hnv HR HV HL. assert (Hn : 0 < INR (hc_rbins c)) by (apply lt_0_INR; exact Hnr). assert (Hn' : 0 < INR (hc_vbins c)) by (apply lt_0_INR; exact Hnv).
  assert (Ew : (vMax - v_min c vMax) / INR (hc_vbins c) = vwidth c vMax) by (unfold v_min, vwidth; destruct (hc_radial c); field; lra).
  assert (Hw : 0 < vwidth c vMax) by (unfold vwidth; destruct (hc_radial c); apply Rdiv_lt_0_compat; lra).
  unfold process_phase. cbv zeta. rewrite Ew. set (w := vwidth c vMax) in *. set (dr := rMax / INR (hc_rbins c)). assert (Hdr : 0 < dr) by (apply Rdiv_lt_0_compat; assumption).
  set (vol := fun j : nat => (dr * INR (j + 1) * (dr * INR (j + 1)) * (dr * INR (j + 1)) - dr * INR j * (dr * INR j) * (dr * INR j)) * 4 * PI / 3).
  assert (Hvol : forall j, vol j = shell_volume (INR j * dr) (INR (S j) * dr)).
  { intros j. unfold vol, shell_volume. rewrite Nat.add_1_r. field. }
  assert (Hvp : forall j, 0 < vol j).
  { intros j. rewrite Hvol. unfold shell_volume. rewrite S_INR. pose proof PI_RGT_0. pose proof (pos_INR j). set (a := INR j) in *. clearbody a.
    apply Rmult_lt_0_compat; [lra|]. replace (((a + 1) * dr) ^ 3 - (a * dr) ^ 3) with (dr ^ 3 * (3 * a * a + 3 * a + 1)) by ring. apply Rmult_lt_0_compat; [apply pow_lt; exact Hdr|nra]. }
  clearbody w dr.
  match goal with |- context [loop (hc_rbins c) ?body rhos] => set (bd := body) end.
  destruct (loop_inv (fun j rh => length rh = length rhos /\ (forall i, nth i rh 0 = if (i <? j * hc_vbins c)%nat then nth i rhos 0 / (vol (i / hc_vbins c)%nat * w) else nth i rhos 0))
     (hc_rbins c) bd rhos) as (out & E & Lo & Ho).
  - split; [reflexivity|]. intros i. reflexivity.
  - intros j rh Hj (Lr & Hr). unfold bd.
    destruct (loop_inv (fun k r1 => length r1 = length rhos /\ (forall i, nth i r1 0 = if (i <? j * hc_vbins c + k)%nat then nth i rhos 0 / (vol (i / hc_vbins c)%nat * w) else nth i rhos 0))
     (hc_vbins c) (fun i rhos => do rho <- rd rhos (j * hc_vbins c + i); wr rhos (j * hc_vbins c + i) (rho / (vol j * w))) rh) as (r2 & E2 & L2 & H2).
    + split; [exact Lr|]. intros i. rewrite Nat.add_0_r. apply Hr.
    + intros k r1 Hk (L1 & H1). assert (Hi : (j * hc_vbins c + k < length r1)%nat) by (rewrite L1, HL; nia). rewrite (rd_nth r1 _ 0) by exact Hi.
      destruct (wr_some r1 (j * hc_vbins c + k) (nth (j * hc_vbins c + k) r1 0 / (vol j * w)) 0 Hi) as (l' & Ew' & Lw & Nw). exists l'. split; [exact Ew'|]. split; [congruence|].
      intros i. rewrite Nw. destruct (Nat.eqb_spec i (j * hc_vbins c + k)) as [->|Hne].
      * rewrite H1. destruct (Nat.ltb_spec (j * hc_vbins c + k) (j * hc_vbins c + k)); [lia|]. destruct (Nat.ltb_spec (j * hc_vbins c + k) (j * hc_vbins c + S k)); [|lia].
        replace ((j * hc_vbins c + k) / hc_vbins c)%nat with j; [reflexivity|]. symmetry. rewrite Nat.add_comm, Nat.div_add by lia. rewrite Nat.div_small by exact Hk. reflexivity.
      * rewrite H1. destruct (Nat.ltb_spec i (j * hc_vbins c + k)), (Nat.ltb_spec i (j * hc_vbins c + S k)); try lia; reflexivity.
    + exists r2. split; [exact E2|]. split; [exact L2|]. intros i. rewrite H2. replace (j * hc_vbins c + hc_vbins c)%nat with (S j * hc_vbins c)%nat by (cbn; lia). reflexivity.
  - rewrite E. eexists _, _, out. split; [reflexivity|]. rewrite !map_length, !seq_length. split; [reflexivity|]. split; [reflexivity|]. split; [congruence|]. split; [|split].
    + intros j Hj. rewrite (nth_indep _ 0 (dr * (INR 0 + 1 / 2))) by (rewrite map_length, seq_length; exact Hj). rewrite (map_nth (fun j => dr * (INR j + 1 / 2))), seq_nth by exact Hj. cbn [Nat.add]. ring.
    + intros k Hk. rewrite (nth_indep _ 0 (v_min c vMax + w * (INR 0 + 1 / 2))) by (rewrite map_length, seq_length; exact Hk). rewrite (map_nth (fun i => v_min c vMax + w * (INR i + 1 / 2))), seq_nth by exact Hk.
      cbn [Nat.add]. unfold v_min, vmin_of. destruct (hc_radial c); ring.
    + intros j k Hj Hk. rewrite <- Hvol, Ho. destruct (Nat.ltb_spec (j * hc_vbins c + k) (hc_rbins c * hc_vbins c)); [|nia].
      replace ((j * hc_vbins c + k) / hc_vbins c)%nat with j; [field; split; [lra|]; specialize (Hvp j); lra|]. symmetry. rewrite Nat.add_comm, Nat.div_add by lia. rewrite Nat.div_small by exact Hk. reflexivity.
Qed.

(** ** All files of a snapshot *)
Definition in_region (o w x : vec3) : Prop :=
  let '(ox, oy, oz) := o in let '(wx, wy, wz) := w in let '(a, b, d) := x in ox <= a <= ox + wx /\ oy <= b <= oy + wy /\ oz <= d <= oz + wz.

(** A file: as many velocities and masses as positions, all inside the region of the header. *)
Definition file_ok (fv : PFile * list vec3) : Prop :=
  length (snd fv) = length (f_xs (fst fv)) /\ length (f_ms (fst fv)) = length (f_xs (fst fv)) /\
  Forall (in_region (f_origin (fst fv)) (f_width (fst fv))) (f_xs (fst fv)).
Definition file_particles (fv : PFile * list vec3) : list particle := particles_of (f_xs (fst fv)) (snd fv) (f_ms (fst fv)).

Lemma sphere_meets (o : vec3) R0 (org w x : vec3) tw : 0 < R0 -> in_region org w x -> sqrt (dist2_3 x o) < R0 -> sheet_intersect o R0 org w tw = true.
Proof.
  intros HR Hx Hd. apply Props_Prof.cube_meets_intersect. unfold Props_Prof.cube_meets.
  assert (Hd2 : dist2_3 x o < R0 * R0).
  { assert (0 <= dist2_3 x o) by (unfold dist2_3; destruct x as ((a, b), d), o as ((x0, y0), z0); pose proof (Rle_0_sqr (a - x0)); pose proof (Rle_0_sqr (b - y0)); pose proof (Rle_0_sqr (d - z0)); unfold Rsqr in *; lra).
    pose proof (sqrt_pos (dist2_3 x o)). pose proof (sqrt_sqrt _ H). nra. }
  unfold in_region, dist2_3 in *. destruct x as ((a, b), d), o as ((x0, y0), z0), org as ((ox, oy), oz), w as ((wx, wy), wz).
  pose proof (Rle_0_sqr (a - x0)); pose proof (Rle_0_sqr (b - y0)); pose proof (Rle_0_sqr (d - z0)); unfold Rsqr in *.
  assert (Hab : forall t, t * t < R0 * R0 -> - R0 < t < R0) by (intros t Ht; split; nra).
  assert (A := Hab (a - x0) ltac:(lra)). assert (B := Hab (b - y0) ltac:(lra)). assert (D := Hab (d - z0) ltac:(lra)). lra.
Qed.

Section Rows.
Variables (nan : Z) (c : PhaseConf).
Hypothesis Hnr : (0 < hc_rbins c)%nat.
Hypothesis Hnv : (0 < hc_vbins c)%nat.

Definition pins (snap : Z) (fi j : nat) (s : PSphere) (fv : PFile * list vec3) (rhos : list R) : option (list R) :=
  phase_points nan c s (f_tw (fst fv)) (f_xs (fst fv)) (snd fv) (f_ms (fst fv)) rhos.

Definition pOK (s : PSphere) (fv : PFile * list vec3) : Prop :=
  0 < p_R s /\ 0 < p_V s /\ file_ok fv /\
  (phase_meets s fv = true -> forall p, In p (file_particles fv) -> in_half_box (f_tw (fst fv)) (p_c s) (fst (fst p)) /\ regular c s p).
Definition pInv (rhos : list R) : Prop := length rhos = (hc_rbins c * hc_vbins c)%nat.

Lemma pins_ok snap fi j s fv rhos : pOK s fv -> phase_meets s fv = true -> pInv rhos -> exists rhos', pins snap fi j s fv rhos = Some rhos' /\ pInv rhos'.
Proof.
  intros (HR & HV & (Lv & Lm & _) & Hp) Hm HI. destruct (phase_points_ok nan c s (f_tw (fst fv)) Hnr Hnv HR HV (f_xs (fst fv)) (snd fv) (f_ms (fst fv)) rhos) as (r' & E & L & _); auto.
  exists r'. split; assumption.
Qed.

Lemma row_fold_phase snap j s : forall files fi rhos, (forall fv, In fv files -> pOK s fv) -> pInv rhos ->
  exists rhos', row_fold phase_meets pins snap fi j s files rhos = Some rhos' /\ pInv rhos' /\
    forall j k, (j < hc_rbins c)%nat -> (k < hc_vbins c)%nat -> exists gain,
      tally (cell c s j k) (flat_map file_particles files) gain /\ nth (j * hc_vbins c + k) rhos' 0 = nth (j * hc_vbins c + k) rhos 0 + gain.
Proof.
  induction files as [|fv files IH]; intros fi rhos HOK HI; cbn [row_fold flat_map].
  - exists rhos. split; [reflexivity|]. split; [exact HI|]. intros. exists 0. split; [constructor|ring].
  - destruct (HOK fv (or_introl eq_refl)) as (HR & HV & (Lv & Lm & Hreg) & Hp). unfold row_step.
    assert (Hstep : exists r1, (if phase_meets s fv then pins snap fi j s fv rhos else Some rhos) = Some r1 /\ pInv r1 /\
      forall j k, (j < hc_rbins c)%nat -> (k < hc_vbins c)%nat -> exists gain, tally (cell c s j k) (file_particles fv) gain /\ nth (j * hc_vbins c + k) r1 0 = nth (j * hc_vbins c + k) rhos 0 + gain).
    { destruct (phase_meets s fv) eqn:Em.
      - destruct (phase_points_ok nan c s (f_tw (fst fv)) Hnr Hnv HR HV (f_xs (fst fv)) (snd fv) (f_ms (fst fv)) rhos) as (r1 & E & L & H); auto. eauto.
      - exists rhos. split; [reflexivity|]. split; [exact HI|]. intros j' k Hj Hk. exists 0. split; [|ring]. apply tally_none. intros p Hin ((_ & Hb) & _).
        assert (Hx : In (fst (fst p)) (f_xs (fst fv))).
        { unfold file_particles, particles_of in Hin. destruct p as ((x, v), m). apply in_combine_l in Hin. apply in_combine_l in Hin. exact Hin. }
        rewrite Forall_forall in Hreg. specialize (Hreg _ Hx).
        assert (Hlt : sqrt (dist2_3 (fst (fst p)) (p_c s)) < p_R s).
        { assert (Hn : 0 < INR (hc_rbins c)) by (apply lt_0_INR; exact Hnr). assert (INR (S j') <= INR (hc_rbins c)) by (apply le_INR; lia).
          assert (0 < p_R s / INR (hc_rbins c)) by (apply Rdiv_lt_0_compat; assumption).
          assert (INR (S j') * (p_R s / INR (hc_rbins c)) <= INR (hc_rbins c) * (p_R s / INR (hc_rbins c))) by nra.
          assert (Eq : INR (hc_rbins c) * (p_R s / INR (hc_rbins c)) = p_R s) by (field; lra). lra. }
        unfold phase_meets in Em. rewrite (sphere_meets (p_c s) (p_R s) _ _ _ (f_tw (fst fv)) HR Hreg Hlt) in Em. discriminate. }
    destruct Hstep as (r1 & E1 & I1 & H1). rewrite E1. destruct (IH (fi + 1)%nat r1) as (r2 & E2 & I2 & H2); [intros; apply HOK; now right|exact I1|].
    exists r2. split; [exact E2|]. split; [exact I2|]. intros j' k Hj Hk. destruct (H1 j' k Hj Hk) as (g1 & T1 & G1). destruct (H2 j' k Hj Hk) as (g2 & T2 & G2).
    exists (g1 + g2). split; [now apply tally_app|]. rewrite G2, G1. ring.
Qed.
End Rows.
