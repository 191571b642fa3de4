(** * Angles of tetrahedron slices: AngleRange. *)
From Coq Require Import Reals Lra Psatz List Bool ZArith Lia.
From Verif Require Import RealBase ShellModel ShellProofs LosProofs3 GeomModel GeomSpec SliceAngModel SliceAngSpec.
Import List ListNotations.
Local Open Scope R_scope.

Definition turn (a : R) : Prop := 0 <= a < 2 * PI.
Lemma same_dir_cs a b : same_direction a b -> cos a = cos b /\ sin a = sin b.
Proof.
  intros (k & ->). destruct (Z_lt_le_dec k 0) as [K|K].
  - replace k with (- Z.of_nat (Z.to_nat (- k)))%Z by lia. set (n := Z.to_nat (- k)). rewrite opp_IZR, <- INR_IZR_INZ.
    rewrite <- (cos_period (b + 2 * PI * - INR n) n), <- (sin_period (b + 2 * PI * - INR n) n).
    replace (b + 2 * PI * - INR n + 2 * INR n * PI) with b by ring. split; reflexivity.
  - replace k with (Z.of_nat (Z.to_nat k)) by lia. set (n := Z.to_nat k). rewrite <- INR_IZR_INZ.
    replace (b + 2 * PI * INR n) with (b + 2 * INR n * PI) by ring. rewrite cos_period, sin_period. split; reflexivity.
Qed.
Lemma same_dir_trans a b c : same_direction a b -> same_direction b c -> same_direction a c.
Proof. intros (k & ->) (j & ->). exists (j + k)%Z. rewrite plus_IZR. ring. Qed.
Lemma same_dir_sym a b : same_direction a b -> same_direction b a.
Proof. intros (k & ->). exists (- k)%Z. rewrite opp_IZR. ring. Qed.
Lemma same_dir_add a b c : same_direction a b -> same_direction (a + c) (b + c).
Proof. intros (k & ->). exists k. ring. Qed.
Lemma same_dir_refl a : same_direction a a.
Proof. exists 0%Z. ring. Qed.
Lemma same_dir_turn a b : turn a -> turn b -> same_direction a b -> a = b.
Proof.
  unfold turn. intros Ha Hb (k & E). pose proof PI_RGT_0.
  assert (-1 < IZR k < 1) by (split; nra). assert ((-1 < k < 1)%Z) by (split; apply lt_IZR; lra). assert (k = 0)%Z by lia. subst k. lra.
Qed.

(** ** The angle of a corner *)
Lemma corner_phi_turn p : turn (corner_phi p).
Proof.
  unfold corner_phi, turn. cbv zeta. pose proof PI_RGT_0. destruct p as [x y]. cbn [fst snd].
  destruct (Req_EM_T (x * x + y * y) 0) as [E|E].
  - assert (x = 0) by nra. assert (y = 0) by nra. subst. unfold atan2. destruct (Rltb_spec 0 0); [lra|]. destruct (Rltb_spec 0 0); lra.
  - assert (Hp : 0 < x * x + y * y) by nra. pose proof (atan2_range y x Hp). destruct (Rltb_spec (atan2 y x) 0); lra.
Qed.
Lemma corner_phi_polar p : let r := sqrt (fst p * fst p + snd p * snd p) in fst p = r * cos (corner_phi p) /\ snd p = r * sin (corner_phi p).
Proof.
  cbv zeta. destruct p as [x y]. cbn [fst snd]. destruct (Req_EM_T (x * x + y * y) 0) as [E|E].
  - rewrite E, sqrt_0. assert (x = 0) by nra. assert (y = 0) by nra. lra.
  - assert (Hp : 0 < x * x + y * y) by nra. destruct (atan2_cos_sin y x Hp) as (C & K). pose proof (sqrt_lt_R0 _ Hp) as Hs.
    assert (same_direction (corner_phi (x, y)) (atan2 y x)) as D.
    { unfold corner_phi. cbv zeta. cbn [fst snd]. destruct (Rltb_spec (atan2 y x) 0); [exists 1%Z; lra|exists 0%Z; lra]. }
    apply same_dir_cs in D. destruct D as (-> & ->). rewrite C, K. split; field; lra.
Qed.
Lemma corner_seen p : p <> (0, 0) -> seen_at (corner_phi p) (fst p) (snd p).
Proof.
  intros N. destruct (corner_phi_polar p) as (A & B). eexists. split; [|split; [exact A|exact B]].
  apply sqrt_lt_R0. destruct p as [x y]. cbn [fst snd] in *. destruct (Req_EM_T x 0) as [->|Hx]; [|nra]. destruct (Req_EM_T y 0) as [->|Hy]; [contradiction|nra].
Qed.

(** ** angularWidth *)
Lemma aw_dir a b : same_direction (a + angular_width a b) b.
Proof. unfold angular_width. destruct (Rltb_spec a b); [exists 0%Z; lra|exists 1%Z; lra]. Qed.
Lemma aw_range a b : turn a -> turn b -> 0 < angular_width a b <= 2 * PI.
Proof. unfold turn, angular_width. intros. destruct (Rltb_spec a b); lra. Qed.

(** ** AngleRange: the invariant *)
Definition arc_inv (lo hi w : R) (seen : list R) : Prop :=
  turn lo /\ turn hi /\ w = angular_width lo hi /\ (forall p, In p seen -> in_arc lo w p).
Lemma expand_inv lo hi w seen phi : arc_inv lo hi w seen -> turn phi ->
  let '(lo', hi', w') := expand (lo, hi, w) phi in arc_inv lo' hi' w' (phi :: seen) /\ w <= w'.
Proof.
  intros (Hl & Hh & Hw & Hs) Hp. unfold expand.
  destruct (Rltb_spec (angular_width lo phi) (angular_width phi hi)) as [A|A].
  - destruct (Rltb_spec w (angular_width lo phi)) as [B|B].
    + split; [|lra]. split; [exact Hl|]. split; [exact Hp|]. split; [reflexivity|]. pose proof (aw_range lo phi Hl Hp). intros p [<-|P].
      * exists (angular_width lo phi). split; [lra|apply aw_dir].
      * destruct (Hs p P) as (t & Ht & D). exists t. split; [lra|exact D].
    + split; [|lra]. split; [exact Hl|]. split; [exact Hh|]. split; [exact Hw|]. pose proof (aw_range lo phi Hl Hp). intros p [<-|P]; [|exact (Hs p P)].
      exists (angular_width lo phi). split; [lra|apply aw_dir].
  - destruct (Rltb_spec w (angular_width phi hi)) as [B|B].
    + split; [|lra]. split; [exact Hp|]. split; [exact Hh|]. split; [reflexivity|]. pose proof (aw_range phi hi Hp Hh). pose proof (aw_range lo hi Hl Hh). intros p [<-|P].
      * exists 0. split; [lra|rewrite Rplus_0_r; apply same_dir_refl].
      * destruct (Hs p P) as (t & Ht & D). exists (t + (angular_width phi hi - w)). split; [lra|].
        assert (E : same_direction (phi + angular_width phi hi) (lo + w)).
        { eapply same_dir_trans; [apply aw_dir|]. apply same_dir_sym. rewrite Hw. apply aw_dir. }
        apply same_dir_trans with (lo + t); [|exact D]. apply (same_dir_add _ _ (t - w)) in E.
        replace (phi + (t + (angular_width phi hi - w))) with (phi + angular_width phi hi + (t - w)) by ring. replace (lo + t) with (lo + w + (t - w)) by ring. exact E.
    + split; [|lra]. split; [exact Hl|]. split; [exact Hh|]. split; [exact Hw|]. pose proof (aw_range lo hi Hl Hh). intros p [<-|P]; [|exact (Hs p P)].
      (* phi is in [lo, hi] *)
      unfold turn, angular_width in *. destruct (Rltb_spec lo hi), (Rltb_spec lo phi), (Rltb_spec phi hi); try lra;
        first [exists (phi - lo); split; [lra|exists 0%Z; lra] | exists (phi - lo + 2 * PI); split; [lra|exists 1%Z; lra]].
Qed.
Lemma fold_inv phis : Forall turn phis -> forall lo hi w seen, arc_inv lo hi w seen ->
  let '(lo', hi', w') := fold_left expand phis (lo, hi, w) in arc_inv lo' hi' w' (phis ++ seen) /\ w <= w'.
Proof.
  induction 1 as [|phi phis Hp _ IH]; intros lo hi w seen I; cbn [fold_left app].
  - split; [exact I|lra].
  - pose proof (expand_inv lo hi w seen phi I Hp) as E. destruct (expand (lo, hi, w) phi) as [[lo1 hi1] w1]. destruct E as (E & L1).
    specialize (IH lo1 hi1 w1 _ E). destruct (fold_left expand phis (lo1, hi1, w1)) as [[lo2 hi2] w2]. destruct IH as ((A & B & C & D) & L2). split; [|lra].
    split; [exact A|]. split; [exact B|]. split; [exact C|]. intros p P. apply D. rewrite in_app_iff. destruct P as [<-|P]; [right; left; reflexivity|].
    apply in_app_iff in P. destruct P; [left|right; right]; assumption.
Qed.
Lemma range_arc phis start width : Forall turn phis -> angle_range phis = Some (start, width) ->
  turn start /\ (0 < width <= PI \/ width = 2 * PI) /\ forall p, In p phis -> in_arc start width p.
Proof.
  intros F H. destruct phis as [|p0 [|p1 rest]]; try discriminate. unfold angle_range in H.
  pose proof (Forall_inv F) as H0. pose proof (Forall_inv (Forall_inv_tail F)) as H1. pose proof (Forall_inv_tail (Forall_inv_tail F)) as Hr. pose proof PI_RGT_0.
  assert (I : let '(lo, hi) := if Rltb (angular_width p1 p0) (angular_width p0 p1) then (p1, p0) else (p0, p1) in
    arc_inv lo hi (angular_width lo hi) [p0; p1]).
  { destruct (Rltb (angular_width p1 p0) (angular_width p0 p1)).
    - split; [exact H1|]. split; [exact H0|]. split; [reflexivity|]. pose proof (aw_range p1 p0 H1 H0). intros p [<-|[<-|[]]].
      + exists (angular_width p1 p0). split; [lra|apply aw_dir].
      + exists 0. split; [lra|rewrite Rplus_0_r; apply same_dir_refl].
    - split; [exact H0|]. split; [exact H1|]. split; [reflexivity|]. pose proof (aw_range p0 p1 H0 H1). intros p [<-|[<-|[]]].
      + exists 0. split; [lra|rewrite Rplus_0_r; apply same_dir_refl].
      + exists (angular_width p0 p1). split; [lra|apply aw_dir]. }
  destruct (if Rltb (angular_width p1 p0) (angular_width p0 p1) then (p1, p0) else (p0, p1)) as [lo hi].
  pose proof (fold_inv rest Hr lo hi _ _ I) as G. destruct (fold_left expand rest (lo, hi, angular_width lo hi)) as [[lo' hi'] w'].
  destruct G as ((A & B & C & D) & L). pose proof (aw_range lo' hi' A B) as R'. destruct (Rltb_spec PI w') as [W|W]; injection H as <- <-.
  - split; [unfold turn; lra|]. split; [right; reflexivity|]. intros p P. rewrite Forall_forall in F. specialize (F p P). unfold turn in F. exists p. split; [lra|]. rewrite Rplus_0_l. apply same_dir_refl.
  - split; [exact A|]. split; [left; lra|]. intros p P. apply D. rewrite in_app_iff. destruct P as [<-|[<-|P]]; [right; left; reflexivity|right; right; left; reflexivity|left; exact P].
Qed.

(** ** The cone of the directions of an arc *)
Definition cone (s w x y : R) : Prop := exists t r, 0 <= t <= w /\ 0 <= r /\ x = r * cos (s + t) /\ y = r * sin (s + t).
Lemma polar_exists x y : exists t r, turn t /\ 0 <= r /\ x = r * cos t /\ y = r * sin t.
Proof.
  destruct (corner_phi_polar (x, y)) as (A & B). exists (corner_phi (x, y)), (sqrt (x * x + y * y)). split; [apply corner_phi_turn|]. split; [apply sqrt_pos|]. split; [exact A|exact B].
Qed.
Lemma cone_add_le s t1 t2 r1 r2 : t1 <= t2 -> t2 - t1 <= PI -> 0 <= r1 -> 0 <= r2 ->
  exists t r, t1 <= t <= t2 /\ 0 <= r /\ r1 * cos (s + t1) + r2 * cos (s + t2) = r * cos (s + t) /\ r1 * sin (s + t1) + r2 * sin (s + t2) = r * sin (s + t).
Proof.
  intros L W R1 R2. pose proof PI_RGT_0. set (m := s + (t1 + t2) / 2). set (h := (t2 - t1) / 2). assert (Hh : 0 <= h <= PI / 2) by (unfold h; lra).
  replace (s + t1) with (m - h) by (unfold m, h; field). replace (s + t2) with (m + h) by (unfold m, h; field).
  set (X := (r1 + r2) * cos h). set (Y := (r2 - r1) * sin h).
  assert (EX : r1 * cos (m - h) + r2 * cos (m + h) = X * cos m - Y * sin m) by (rewrite cos_minus, cos_plus; unfold X, Y; ring).
  assert (EY : r1 * sin (m - h) + r2 * sin (m + h) = X * sin m + Y * cos m) by (rewrite sin_minus, sin_plus; unfold X, Y; ring).
  rewrite EX, EY. assert (Hc : 0 <= cos h) by (apply cos_ge_0; lra). assert (Hsn : 0 <= sin h) by (apply sin_ge_0; lra).
  destruct (Req_EM_T X 0) as [Z0|NZ].
  - rewrite Z0. destruct (Rle_dec r1 r2) as [C|C].
    + destruct (Req_EM_T (r1 + r2) 0) as [Z1|Z1].
      * exists t1, 0. assert (r1 = 0) by lra. assert (r2 = 0) by lra. unfold Y. subst r1 r2. repeat split; try lra.
      * assert (cos h = 0) by (unfold X in Z0; apply Rmult_integral in Z0; destruct Z0; lra).
        exists t2, Y. assert (h = PI / 2) as Eh. { destruct (Req_EM_T h (PI / 2)); [assumption|]. assert (0 < cos h) by (apply cos_gt_0; lra). lra. }
        assert (Es : s + t2 = m + h) by (unfold m, h; field). rewrite Es, Eh. rewrite cos_plus, sin_plus, cos_PI2, sin_PI2.
        repeat split; try lra. unfold Y. apply Rmult_le_pos; lra.
    + assert (cos h = 0) by (unfold X in Z0; apply Rmult_integral in Z0; destruct Z0; lra).
      exists t1, (- Y). assert (h = PI / 2) as Eh. { destruct (Req_EM_T h (PI / 2)); [assumption|]. assert (0 < cos h) by (apply cos_gt_0; lra). lra. }
      assert (Es : s + t1 = m - h) by (unfold m, h; field). rewrite Es, Eh. rewrite cos_minus, sin_minus, cos_PI2, sin_PI2.
      repeat split; try lra. unfold Y. nra.
  - assert (PX : 0 < X) by (assert (0 <= X) by (unfold X; apply Rmult_le_pos; lra); lra).
    assert (Pc : 0 < cos h) by (unfold X in PX; nra). assert (Hh' : h < PI / 2). { destruct (Req_EM_T h (PI / 2)) as [E|E]; [rewrite E, cos_PI2 in Pc; lra|lra]. }
    set (u := Y / X). assert (Eu : u * X = Y) by (unfold u; field; lra).
    assert (Tn : tan h * cos h = sin h) by (unfold tan; field; lra).
    assert (U : - tan h <= u <= tan h).
    { assert (0 <= tan h) by (unfold tan; apply Rmult_le_pos; [lra|left; apply Rinv_0_lt_compat; lra]).
      assert (- (tan h * X) <= Y <= tan h * X).
      { unfold X, Y. replace (tan h * ((r1 + r2) * cos h)) with ((r1 + r2) * sin h) by (rewrite <- Tn; ring). nra. }
      split; nra. }
    assert (At : - h <= atan u <= h).
    { rewrite <- (atan_tan h) at 1 2 by lra. rewrite <- atan_opp. destruct U as [U1 U2].
      assert (mono : forall a b, a <= b -> atan a <= atan b) by (intros a b [K|K]; [left; apply atan_increasing; exact K|right; rewrite K; reflexivity]). split; apply mono; lra. }
    exists ((t1 + t2) / 2 + atan u), (X * sqrt (1 + u²)). split; [unfold h in At; lra|]. split; [apply Rmult_le_pos; [lra|apply sqrt_pos]|].
    replace (s + ((t1 + t2) / 2 + atan u)) with (m + atan u) by (unfold m; ring). rewrite cos_plus, sin_plus, cos_atan, sin_atan.
    assert (Q : 0 < sqrt (1 + u²)) by (apply sqrt_lt_R0; unfold Rsqr; nra). rewrite <- Eu. split; field; lra.
Qed.
Lemma cone_add s w x1 y1 x2 y2 : w <= PI \/ w = 2 * PI -> cone s w x1 y1 -> cone s w x2 y2 -> cone s w (x1 + x2) (y1 + y2).
Proof.
  intros [W|W] (t1 & r1 & T1 & R1 & -> & ->) (t2 & r2 & T2 & R2 & -> & ->).
  - destruct (Rle_dec t1 t2) as [L|L].
    + destruct (cone_add_le s t1 t2 r1 r2) as (t & r & T & Hr & E1 & E2); try lra. exists t, r. rewrite E1, E2. repeat split; lra.
    + destruct (cone_add_le s t2 t1 r2 r1) as (t & r & T & Hr & E1 & E2); try lra. exists t, r. repeat split; lra.
  - set (x := r1 * cos (s + t1) + r2 * cos (s + t2)). set (y := r1 * sin (s + t1) + r2 * sin (s + t2)).
    destruct (polar_exists (x * cos s + y * sin s) (y * cos s - x * sin s)) as (t & r & T & Hr & E1 & E2).
    exists t, r. unfold turn in T. split; [lra|]. split; [exact Hr|]. rewrite cos_plus, sin_plus. pose proof (sin2_cos2 s) as P. unfold Rsqr in P.
    split.
    + transitivity ((x * cos s + y * sin s) * cos s - (y * cos s - x * sin s) * sin s); [|rewrite E1, E2; ring]. transitivity (x * (sin s * sin s + cos s * cos s)); [rewrite P; ring|ring].
    + transitivity ((x * cos s + y * sin s) * sin s + (y * cos s - x * sin s) * cos s); [|rewrite E1, E2; ring]. transitivity (y * (sin s * sin s + cos s * cos s)); [rewrite P; ring|ring].
Qed.
Lemma cone_scale s w k x y : 0 <= k -> cone s w x y -> cone s w (k * x) (k * y).
Proof. intros K (t & r & T & Hr & -> & ->). exists t, (k * r). repeat split; try lra; try nra. Qed.
Lemma hull_cone s w pts : 0 <= w -> w <= PI \/ w = 2 * PI -> (forall p, In p pts -> cone s w (fst p) (snd p)) -> forall x y, hull pts x y -> cone s w x y.
Proof.
  intros W0 W F x y (ws & _ & P & _ & -> & ->). revert ws P F. induction pts as [|p pts IH]; intros [|v ws] P F; cbn [combine map fold_right fst snd];
    try (exists 0, 0; repeat split; lra).
  apply cone_add; [exact W|apply cone_scale; [apply P; left; reflexivity|apply F; left; reflexivity]|]. apply IH; [intros; apply P; right; assumption|intros; apply F; right; assumption].
Qed.
Lemma arc_cone s w p : in_arc s w (corner_phi p) -> cone s w (fst p) (snd p).
Proof.
  intros (t & T & D). destruct (corner_phi_polar p) as (A & B). apply same_dir_cs in D. destruct D as (D1 & D2). eexists t, _. split; [exact T|].
  split; [apply sqrt_pos|]. rewrite D1, D2. split; [exact A|exact B].
Qed.
(** Every point of the polygon is seen in the range. *)
Lemma range_covers pts start width phi x y : angle_range (map corner_phi pts) = Some (start, width) -> hull pts x y -> seen_at phi x y -> in_arc start width phi.
Proof.
  intros H Hu (r & Hr & Ex & Ey). assert (F : Forall turn (map corner_phi pts)) by (apply Forall_forall; intros a A; apply in_map_iff in A; destruct A as (p & <- & _); apply corner_phi_turn).
  destruct (range_arc _ _ _ F H) as (T & W & C). pose proof PI_RGT_0.
  assert (K : cone start width x y).
  { apply (hull_cone start width pts); [lra|lra| |exact Hu]. intros p P. apply arc_cone. apply C. apply in_map. exact P. }
  destruct K as (t & r' & T' & R' & Ex' & Ey'). exists t. split; [exact T'|].
  assert (N : r * r = r' * r').
  { pose proof (sin2_cos2 phi) as P1. pose proof (sin2_cos2 (start + t)) as P2. unfold Rsqr in *.
    transitivity (x * x + y * y); [rewrite Ex, Ey; transitivity (r * r * (sin phi * sin phi + cos phi * cos phi)); [rewrite P1; ring|ring]
    |rewrite Ex', Ey'; transitivity (r' * r' * (sin (start + t) * sin (start + t) + cos (start + t) * cos (start + t))); [ring|rewrite P2; ring]]. }
  assert (r' = r) by nra. subst r'. assert (C1 : cos (start + t) = cos phi) by (apply Rmult_eq_reg_l with r; lra). assert (S1 : sin (start + t) = sin phi) by (apply Rmult_eq_reg_l with r; lra).
  (* equal cosines and sines *)
  assert (C0 : cos (start + t - phi) = 1). { rewrite cos_minus, C1, S1. pose proof (sin2_cos2 phi) as P. unfold Rsqr in P. lra. }
  clear - C0. set (a := start + t - phi) in *. assert (Ha : sin (a / 2) = 0).
  { assert (E : cos (2 * (a / 2)) = 1) by (replace (2 * (a / 2)) with a by field; exact C0). rewrite cos_2a_sin in E. assert (sin (a / 2) * sin (a / 2) = 0) by lra. nra. }
  apply sin_eq_0_0 in Ha. destruct Ha as (k & Hk). exists k. unfold a in *. lra.
Qed.
