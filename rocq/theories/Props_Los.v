(** * C30, C31, C63-C68: densities along lines of sight and periodic geometry. *)
From Coq Require Import Reals Lra Lia ZArith List Bool Permutation.
From Verif Require Import LosModel LosSpec LoopFacts LosProofs LosProofs2 LosProofs3 LosProofs4 LosProofs5 LosProofs6 LosProofs7 LosProofs8 LosProofs9 LosProofs10 LosProofs11 InterpProofs ShellProofs ShellModel.
Import List ListNotations.
Local Open Scope R_scope.

(** Decide the innermost comparisons of the goal. *)
Ltac rlt := repeat match goal with |- context [Rltb ?a ?b] =>
  lazymatch a with context [Rltb] => fail | _ => lazymatch b with context [Rltb] => fail | _ => destruct (Rltb_spec a b); try lra end end end.

(** ** C30: profile rings *)

(** After any sequence of Insert calls on a new ring, Retrieve(i) writes the density of every bin: the sum of the inserted
    densities weighted by the covered fraction of the bin. No call panics. *)
Theorem C30_insert_retrieve : forall lo hi bins n ops i out,
  (0 < bins)%nat -> lo < hi -> (i < n)%nat -> length out = bins ->
  (forall s e rho k, In (s, e, rho, k) ops -> ordered s e /\ (k < n)%nat) ->
  exists p out', inserts (ring_init lo hi bins n) ops = Some p /\ ring_retrieve p i out = Some out' /\ length out' = bins /\
    forall j, (j < bins)%nat -> nth j out' 0 = density lo ((hi - lo) / INR bins) i j ops.
Proof.
  intros lo hi bins n ops i out Hb Hlh Hi Hout Hops.
  destruct (inserts_spec ops (ring_init lo hi bins n)) as (p & E & G & (S1 & S2 & _) & R).
  - apply ring_init_good; assumption.
  - apply Forall_forall. intros (((s, e), rho), k) Hin. apply (Hops s e rho k Hin).
  - cbn [ring_init p_bins p_n p_lowR p_dr] in S1, S2, R.
    destruct (ring_retrieve_spec p i out G) as (out' & E' & L & H & _); [rewrite S2; exact Hi|lia|].
    exists p, out'. split; [exact E|]. split; [exact E'|]. split; [congruence|]. intros j Hj.
    rewrite H by lia. rewrite S1, R by exact Hj. rewrite (ring_init_rows lo hi bins n). lra.
Qed.
Print Assumptions C30_insert_retrieve.

(** Splitting a ring over workers, inserting into the ring and into the workers, and joining them gives what inserting
    everything into the ring gives, for workers that are new, of another size, or of the same bin width. *)
Theorem C30_split_join : forall lo hi bins n before own jobs i out p,
  (0 < bins)%nat -> lo < hi -> (i < n)%nat -> length out = bins ->
  (forall s e rho k, In (s, e, rho, k) (before ++ own ++ concat (map snd jobs)) -> ordered s e /\ (k < n)%nat) ->
  (forall w ops, In (w, ops) jobs -> p_n w <> n \/ p_bins w <> bins \/
     (length (p_derivs w) = (bins * n)%nat /\ p_dr w = (hi - lo) / INR bins)) ->
  inserts (ring_init lo hi bins n) before = Some p ->
  exists p1 p2, distribute p own jobs = Some p1 /\ inserts p (own ++ concat (map snd jobs)) = Some p2 /\
    ring_retrieve p1 i out = ring_retrieve p2 i out /\ ring_retrieve p1 i out <> None.
Proof.
  intros lo hi bins n before own jobs i out p Hb Hlh Hi Hout Hops Hw Hp.
  assert (Hok : forall l, (forall o, In o l -> In o (before ++ own ++ concat (map snd jobs))) -> ops_ok n l).
  { intros l Hl. apply Forall_forall. intros (((s, e), rho), k) Hin. apply (Hops s e rho k), Hl, Hin. }
  destruct (inserts_spec before (ring_init lo hi bins n)) as (p' & E & G & (S1 & S2 & S3 & S4 & S5) & _).
  - apply ring_init_good; assumption.
  - apply (Hok before). intros o Ho. apply in_app_iff. left; exact Ho.
  - assert (p' = p) by congruence. subst p'. cbn [ring_init p_bins p_n p_lowR p_highR p_dr] in S1, S2, S3, S4, S5.
    destruct (distribute_spec p own jobs G) as (p1 & E1 & G1 & (T1 & T2 & _) & R1).
    + rewrite S2. apply Hok. intros o Ho. rewrite !in_app_iff. auto.
    + apply Forall_forall. intros (w, ops) Hin. split; cbn [fst snd].
      * unfold worker_for. rewrite S1, S2, S5. destruct (Hw w ops Hin) as [?|[?|(HL & HD)]]; auto.
        destruct (Nat.eq_dec (p_n w) n); [|auto]. destruct (Nat.eq_dec (p_bins w) bins); [|auto]. right; right. split; congruence.
      * rewrite S2. apply Hok. intros o Ho. rewrite !in_app_iff. right; right. apply in_concat. exists ops. split; [|exact Ho].
        apply in_map_iff. exists (w, ops). auto.
    + destruct (inserts_spec (own ++ concat (map snd jobs)) p G) as (p2 & E2 & G2 & (U1 & U2 & _) & R2).
      { rewrite S2. apply Hok. intros o Ho. rewrite in_app_iff. right; exact Ho. }
      exists p1, p2. split; [exact E1|]. split; [exact E2|]. split.
      * apply retrieve_ext; auto; [congruence|congruence|lia|lia|]. intros j Hj. rewrite T1 in *. rewrite R1, R2 by exact Hj. reflexivity.
      * destruct (ring_retrieve_spec p1 i out G1) as (o1 & -> & _); [lia|lia|discriminate].
Qed.
Print Assumptions C30_split_join.

(** Without that condition on the workers the result is wrong: Split keeps the bin width of the worker. Here the worker was
    used for [0, 2] before; half of the only bin [0, 1] is covered with density 1, and 3/4 comes out. *)
Theorem C30_reused_width_refuted : exists w p p1, p = ring_init 0 1 1 1 /\ w = ring_init 0 2 1 1 /\
  distribute p [] [(w, [(Some (1/2), Some 1, 1, 0%nat)])] = Some p1 /\ ring_retrieve p1 0 [0] = Some [3/4] /\
  density 0 1 0 0 [(Some (1/2), Some 1, 1, 0%nat)] = 1/2.
Proof.
  assert (Htr : Rtrunc (1 / 4) = 0%Z).
  { destruct (Rtrunc_pos (1 / 4)) as (H0 & H1); [lra|]. assert (IZR (Rtrunc (1 / 4)) < 1) by lra. apply lt_IZR in H. lia. }
  eexists _, _, _. split; [reflexivity|]. split; [reflexivity|]. split; [|split].
  - unfold distribute. cbn [work_all inserts map snd ring_split ring_init p_n p_bins p_lowR p_highR p_derivs p_dr Nat.eqb negb orb repeat Nat.mul Nat.add].
    unfold ring_insert. cbn [p_n p_bins p_lowR p_highR p_derivs p_dr].
    destruct (Rleb_spec 1 0); [lra|]. cbn [orb]. destruct (Rleb_spec 1 (1/2)); [lra|]. destruct (Rltb_spec 0 (1/2)); [|lra].
    unfold ring_edge. cbn [p_n p_bins p_lowR p_highR p_derivs p_dr]. cbv zeta.
    replace ((1 / 2 - 0) / ((2 - 0) / INR 1)) with (1 / 4) by (cbn; lra). rewrite Htr.
    cbn [Nat.mul Z.of_nat Z.add Z.sub Z.ltb Z.compare Z.opp Z.pos_sub Pos.compare Pos.compare_cont map add_at Z.to_nat rd nth_error wr].
    destruct (Rltb_spec 1 1); [lra|]. cbn [join_all ring_join p_n p_bins p_lowR p_highR p_derivs p_dr Nat.eqb negb orb List.length loop rd nth_error wr]. reflexivity.
  - unfold ring_retrieve. cbn -[Rplus Rmult Rminus Rdiv]. f_equal. apply f_equal2; [lra|reflexivity].
  - cbn [density Nat.eqb covered INR]. unfold Rmax, Rmin. rcase; lra.
Qed.
Print Assumptions C30_reused_width_refuted.

Example C30_nonvacuous : exists p, inserts (ring_init 0 2 2 3) [(None, Some 1, 5, 1%nat); (Some (1/2), Some 3, 2, 1%nat)] = Some p /\
  ring_retrieve p 1 [0; 0] = Some [6; 2].
Proof.
  destruct (C30_insert_retrieve 0 2 2 3 [(None, Some 1, 5, 1%nat); (Some (1/2), Some 3, 2, 1%nat)] 1 [0; 0]) as (p & out' & E & E' & L & H);
    [lia|lra|lia|reflexivity| |].
  - intros s e rho k [X|[X|[]]]; injection X as <- <- <- <-; cbn; (split; [try exact I; lra|lia]).
  - exists p. split; [exact E|]. rewrite E'. f_equal. destruct out' as [|a [|b [|]]]; try discriminate.
    pose proof (H 0%nat ltac:(lia)) as H0. pose proof (H 1%nat ltac:(lia)) as H1. cbn [nth] in H0, H1. rewrite H0, H1.
    cbn [density Nat.eqb covered INR]. unfold Rmax, Rmin. apply f_equal2; [|apply f_equal2; [|reflexivity]]; rcase; lra.
Qed.

(** ** C31: nearest images *)

(** wrapDist: the displacement to the nearest image, for two coordinates in the box. *)
Theorem C31_wrap_dist : forall x1 x2 L, 0 < L -> 0 <= x1 <= L -> 0 <= x2 <= L -> nearest_image L (x1 - x2) (wrap_dist x1 x2 L).
Proof.
  intros x1 x2 L HL H1 H2. unfold wrap_dist, nearest_image. cbv zeta. replace (L / -2) with (- (L / 2)) by field.
  destruct (Rltb_spec (L / 2) (x1 - x2)); [|destruct (Rltb_spec (x1 - x2) (- (L / 2)))].
  - split; [lra|]. exists (-1)%Z. lra.
  - split; [lra|]. exists 1%Z. lra.
  - split; [lra|]. exists 0%Z. lra.
Qed.
Print Assumptions C31_wrap_dist.

(** Transform: applied in place for any sequence of halos with centres in the box, it leaves the particles at their images
    nearest to the last halo. *)
Theorem C31_transform : forall L origins o xs, 0 < L -> Forall (in_box L) (origins ++ [o]) -> Forall (in_box L) xs ->
  Forall2 (near L o) xs (fold_left (fun ys c => transform c L ys) (origins ++ [o]) xs).
Proof.
  intros L origins o xs HL Ho Hx. rewrite fold_left_app. cbn [fold_left].
  apply Forall_app in Ho. destruct Ho as (Hos & Ho). inversion Ho as [|? ? Ho' _]; subst.
  assert (H : Forall2 (wrapped L) xs (fold_left (fun ys c => transform c L ys) origins xs)); [|apply transform_spec; assumption].
  assert (H0 : Forall2 (wrapped L) xs xs).
  { clear -Hx HL. induction Hx; constructor; auto. apply in_box_wrapped; [lra|assumption]. }
  revert H0. generalize xs at 2 4 as ys. clear Ho Ho'. induction Hos as [|c cs Hc Hcs IH]; intros ys H0; cbn [fold_left]; [exact H0|].
  apply IH. apply transform_spec; assumption.
Qed.
Print Assumptions C31_transform.

Example C31_nonvacuous : transform (9, 1, 5) 10 (transform (1, 9, 5) 10 [(2, 3, 4)]) = [(12, 3, 4)] /\ wrap_dist 1 9 10 = 2.
Proof.
  unfold transform, transform1, wrap_dist. cbn [map]. split.
  - f_equal. apply f_equal2; [apply f_equal2|]; rlt; lra.
  - rlt; lra.
Qed.

(** ** C66: wrap, used for the mass and the members of a shell and for density profiles *)

(** It is right only where there is nothing to do. *)
Theorem C66_wrap_refuted : forall x L, 0 < L -> (nearest_image L x (wrap x (L / 2)) <-> Rabs x <= L / 2).
Proof.
  intros x L HL. unfold wrap, nearest_image. split.
  - intros (Hr & k & Hk). unfold Rabs. destruct (Rcase_abs x), (Rltb_spec (L / 2) x); [lra| | |lra].
    + destruct (Rltb_spec x (- (L / 2))); [|lra]. assert (H : L * (1 - 2 * IZR k) = 0) by lra. apply Rmult_integral in H.
      destruct H as [H|H]; [lra|]. assert (H' : IZR (1 - 2 * k) = 0) by (rewrite minus_IZR, mult_IZR; lra). apply eq_IZR in H'. lia.
    + assert (H : L * (-1 - 2 * IZR k) = 0) by lra. apply Rmult_integral in H.
      destruct H as [H|H]; [lra|]. assert (H' : IZR (-1 - 2 * k) = 0) by (rewrite minus_IZR, mult_IZR; lra). apply eq_IZR in H'. lia.
  - intros H. unfold Rabs in H. destruct (Rcase_abs x), (Rltb_spec (L / 2) x); try lra.
    + destruct (Rltb_spec x (- (L / 2))); [lra|]. split; [lra|]. exists 0%Z. lra.
    + destruct (Rltb_spec x (- (L / 2))); [lra|]. split; [lra|]. exists 0%Z. lra.
Qed.
Print Assumptions C66_wrap_refuted.

(** A particle at 1 and a halo at 99 in a box of 100 are 2 apart; wrap says 48. *)
Example C66_nonvacuous : wrap (1 - 99) (100 / 2) = - 48 /\ nearest_image 100 (1 - 99) 2.
Proof.
  split; [unfold wrap; rlt; lra|].
  split; [lra|exists 1%Z; lra].
Qed.

(** ** C63: files that meet no halo are skipped *)

(** One axis: x and r of the halo, [low, low + width] the file. *)
Lemma in_range_near x r low width L p d : 0 < L -> 0 <= low -> low + width <= L -> 0 <= x <= L -> 0 < r -> low <= p <= low + width ->
  nearest_image L (p - x) d -> Rabs d < r -> r + width <= L / 2 \/ width = L -> in_range x r low width L = true.
Proof.
  intros HL Hlow Hwid Hx Hr Hp (Hd & k & Hk) Hdr Hsmall. unfold in_range.
  assert (Hd' : - r < d < r) by (unfold Rabs in Hdr; destruct (Rcase_abs d); lra).
  destruct Hsmall as [Hs|Hs].
  - assert (Hk1 : (-1 <= k <= 1)%Z).
    { split; apply Z.nlt_ge; intros Hc; [assert (k <= -2)%Z by lia|assert (2 <= k)%Z by lia]; apply IZR_le in H; nra. }
    assert (Hcase : k = (-1)%Z \/ k = 0%Z \/ k = 1%Z) by lia. destruct Hcase as [-> |[-> | ->]].
    + apply orb_true_iff. right. unfold wrap_dist. cbv zeta. replace (L / -2) with (- (L / 2)) by field.
      apply andb_true_iff. rewrite !Rltb_true. split; rlt; lra.
    + apply orb_true_iff. left. apply andb_true_iff. rewrite !Rltb_true. lra.
    + apply orb_true_iff. right. unfold wrap_dist. cbv zeta. replace (L / -2) with (- (L / 2)) by field.
      apply andb_true_iff. rewrite !Rltb_true. split; rlt; lra.
  - apply orb_true_iff. left. apply andb_true_iff. rewrite !Rltb_true. lra.
Qed.

(** A file is not skipped when it holds a particle within rMax of the halo along every axis, if along every axis the file is
    as wide as the box or at most half as wide less the halo's radius. *)
Theorem C63_sheet_intersect_partial : forall L c r o w p p',
  let '(cx, cy, cz) := c in let '(ox, oy, oz) := o in let '(wx, wy, wz) := w in let '(px, py, pz) := p in
  0 < L -> 0 < r -> in_box L c -> 0 <= ox -> 0 <= oy -> 0 <= oz -> ox + wx <= L -> oy + wy <= L -> oz + wz <= L ->
  (r + wx <= L / 2 \/ wx = L) -> (r + wy <= L / 2 \/ wy = L) -> (r + wz <= L / 2 \/ wz = L) ->
  ox <= px <= ox + wx -> oy <= py <= oy + wy -> oz <= pz <= oz + wz ->
  near L c p p' -> dist2_3 p' c < r * r -> sheet_intersect c r o w L = true.
Proof.
  intros L ((cx, cy), cz) r ((ox, oy), oz) ((wx, wy), wz) ((px, py), pz) ((qx, qy), qz) HL Hr (B1 & B2 & B3) O1 O2 O3 W1 W2 W3 S1 S2 S3 P1 P2 P3 (N1 & N2 & N3) Hd.
  unfold dist2_3 in Hd.
  pose proof (Rle_0_sqr (qx - cx)). pose proof (Rle_0_sqr (qy - cy)). pose proof (Rle_0_sqr (qz - cz)). unfold Rsqr in *.
  assert (Hab : forall a, a * a < r * r -> Rabs a < r).
  { intros a Ha. unfold Rabs. destruct (Rcase_abs a); nra. }
  unfold sheet_intersect. apply andb_true_iff. split; [apply andb_true_iff; split|].
  - apply (in_range_near cx r ox wx L px (qx - cx)); auto. apply Hab; lra.
  - apply (in_range_near cy r oy wy L py (qy - cy)); auto. apply Hab; lra.
  - apply (in_range_near cz r oz wz L pz (qz - cz)); auto. apply Hab; lra.
Qed.
Print Assumptions C63_sheet_intersect_partial.

(** A box cut in two: the file with x in [50, 100] is skipped although it holds a particle at distance 2 from the halo. *)
Theorem C63_half_box_refuted : sheet_intersect (1, 50, 50) 5 (50, 0, 0) (50, 100, 100) 100 = false /\
  near 100 (1, 50, 50) (99, 50, 50) (-1, 50, 50) /\ dist2_3 (-1, 50, 50) (1, 50, 50) = 4.
Proof.
  split; [|split].
  - unfold sheet_intersect, in_range, wrap_dist. cbv zeta.
    rlt; reflexivity.
  - unfold near, nearest_image. repeat split; try lra; [exists (-1)%Z|exists 0%Z|exists 0%Z]; lra.
  - unfold dist2_3. lra.
Qed.
Print Assumptions C63_half_box_refuted.

Lemma ln_le_exp a x : 0 < a -> (a <= exp x <-> ln a <= x).
Proof.
  intros Ha. split; intros H.
  - rewrite <- (ln_exp x). destruct H as [H|H]; [left; apply ln_increasing; assumption|rewrite <- H; lra].
  - rewrite <- (exp_ln a Ha). destruct H as [H|H]; [left; apply exp_increasing; exact H|rewrite <- H; lra].
Qed.
Lemma exp_le_ln b x : 0 < b -> (exp x <= b <-> x <= ln b).
Proof.
  intros Hb. split; intros H.
  - rewrite <- (ln_exp x). destruct H as [H|H]; [left; apply ln_increasing; [apply exp_pos|assumption]|rewrite H; lra].
  - rewrite <- (exp_ln b Hb). destruct H as [H|H]; [left; apply exp_increasing; exact H|rewrite H; lra].
Qed.

(** Particles are balls of a kernel radius, which the test ignores: the file is skipped although its particle fills the
    outermost part [0.95, 1] of the ray along the first axis. *)
Theorem C63_kernel_refuted : sheet_intersect (50, 50, 50) 1 (5105/100, 0, 0) (10, 100, 100) 100 = false /\
  ray_share (50, 50, 50) (1, 0, 0) (5105/100, 50, 50) (1/10) (ln (95/100)) (ln 1) 1.
Proof.
  split.
  - unfold sheet_intersect, in_range, wrap_dist. cbv zeta.
    rlt; reflexivity.
  - exists (Some (ln (95/100))), (Some (ln (115/100))). assert (H1 : ln (95/100) < ln (115/100)) by (apply ln_increasing; lra).
    assert (H2 : ln (95/100) < ln 1) by (apply ln_increasing; lra). assert (H3 : ln 1 < ln (115/100)) by (apply ln_increasing; lra).
    split; [cbn; lra|]. split.
    + intros x. unfold dist2_3, along. rewrite <- ln_le_exp, <- exp_le_ln by lra. split; [intros H; split; nra|intros (A & B); nra].
    + cbn [covered]. unfold Rmax, Rmin. rcase; try (exfalso; lra); field; lra.
Qed.
Print Assumptions C63_kernel_refuted.

Example C63_nonvacuous : sheet_intersect (1, 50, 50) 5 (90, 0, 0) (10, 100, 100) 100 = true.
Proof.
  assert (H := C63_sheet_intersect_partial 100 (1, 50, 50) 5 (90, 0, 0) (10, 100, 100) (99, 50, 50) (-1, 50, 50)). cbv beta iota in H.
  apply H; clear H; unfold in_box, dist2_3; try lra. apply C63_half_box_refuted.
Qed.

(** ** C65: rotations *)

(** EulerMatrixBetween(v1, v2) is defined for all v1 and v2; RotateVec by it takes v1 to the direction of v2, keeps all inner
    products, and is undone by EulerMatrixBetween(v2, v1). *)
Theorem C65_rotation : forall v1 v2, dot3 v1 v1 <> 0 -> dot3 v2 v2 <> 0 ->
  exists m m', euler_between v1 v2 {| vals := repeat 0 9; width := 3; height := 3 |} = Some m /\
    euler_between v2 v1 {| vals := repeat 0 9; width := 3; height := 3 |} = Some m' /\
    (let k := sqrt (dot3 v1 v1) / sqrt (dot3 v2 v2) in
     let '(x2, y2, z2) := v2 in rotate_vec v1 m = Some (k * x2, k * y2, k * z2)) /\
    (forall u, exists u', rotate_vec u m = Some u' /\ rotate_vec u' m' = Some u) /\
    (forall u v u' v', rotate_vec u m = Some u' -> rotate_vec v m = Some v' -> dot3 u' v' = dot3 u v).
Proof.
  intros ((x1, y1), z1) ((x2, y2), z2) H1 H2. fold zero9.
  destruct (between_total (x1, y1, z1) (x2, y2, z2)) as (m & Em). destruct (between_total (x2, y2, z2) (x1, y1, z1)) as (m' & Em').
  exists m, m'. split; [exact Em|]. split; [exact Em'|]. unfold dot3 in H1, H2.
  assert (P1 : 0 < x1 * x1 + y1 * y1 + z1 * z1) by nra. assert (P2 : 0 < x2 * x2 + y2 * y2 + z2 * z2) by nra.
  split; [exact (between_maps x1 y1 z1 x2 y2 z2 m P1 P2 Em)|]. split.
  - intros u. destruct (euler_total _ _ _ _ u (between_angles _ _ _ Em)) as (u' & Eu). exists u'. split; [exact Eu|].
    apply (between_inverse _ _ _ _ _ _ Em Em' Eu).
  - intros u v u' v' Eu Ev. apply (between_isometry _ _ _ _ _ _ _ Em Eu Ev).
Qed.
Print Assumptions C65_rotation.

Example C65_nonvacuous : dot3 (1, 2, 2) (1, 2, 2) <> 0 /\ dot3 (0, 3, 4) (0, 3, 4) <> 0.
Proof. unfold dot3. lra. Qed.

(** ** C67: loading with any number of threads *)

(** The particles given to the workers together are every sf3-th particle, each given to exactly one worker. *)
Theorem C67_each_particle_once : forall workers sf3 len, (0 < workers)%nat -> (0 < sf3)%nat ->
  Permutation (flat_map (fun offset => strided len (offset * sf3) (workers * sf3) len) (seq 0 workers))
    (filter (fun k => (k mod sf3 =? 0)%nat) (seq 0 len)).
Proof. intros. apply shares_partition; assumption. Qed.
Print Assumptions C67_each_particle_once.

(** A worker that was used before, for a halo with the same numbers of rings, bins and lines and the same ratio of radii, or
    that is new. *)
Definition used_for_like (h w : Halo) : Prop :=
  w = zero_halo \/
  (exists norms o rMin rMax bins n rho0 w0 ss, Forall (fun v : vec3 => dot3 v v = 1) norms /\ (0 < bins)%nat /\ (0 < n)%nat /\
     0 < rMin < rMax /\ ln rMax - ln rMin = ln (h_rMax h) - ln (h_rMin h) /\
     halo_init norms o rMin rMax bins n rho0 = Some w0 /\ halo_inserts w0 ss = Some w).

(** loadSphereVecs for a halo that already holds any spheres gives, whatever the number of workers and whatever they were used
    for, the same densities on every line of sight, those of inserting one after the other the spheres of the particles (one in
    sf3) that pass Intersect. *)
Theorem C67_threads : forall norms o rMin rMax bins n rho0 h0 before h ws xs ms tw sf3 rKernel rMaxMult rhoM,
  Forall (fun v : vec3 => dot3 v v = 1) norms -> (0 < bins)%nat -> (0 < n)%nat -> 0 < rMin < rMax -> (0 < sf3)%nat ->
  (length xs <= length ms)%nat -> halo_init norms o rMin rMax bins n rho0 = Some h0 -> halo_inserts h0 before = Some h ->
  Forall (used_for_like h0) ws ->
  let rad := rMax * rKernel / rMaxMult in
  let xs' := transform o tw xs in
  exists h1 ws1 h2, load_sphere_vecs h ws xs ms tw (length ws + 1) sf3 rKernel rMaxMult rhoM = Some (h1, ws1, xs') /\
    halo_inserts h (map (fun k => (nth k xs' (0, 0, 0), rad, nth k ms 0 * INR sf3 / (4 * PI / 3 * rad * rad * rad) / rhoM))
      (filter (fun k => halo_intersect1 h rad (nth k xs' (0, 0, 0))) (filter (fun k => (k mod sf3 =? 0)%nat) (seq 0 (length xs))))) = Some h2 /\
    forall ring i buf, (ring < length norms)%nat -> (i < n)%nat -> length buf = bins ->
      get_rhos h1 ring i buf = get_rhos h2 ring i buf /\ get_rhos h1 ring i buf <> None.
Proof.
  intros norms o rMin rMax bins n rho0 h0 before h ws xs ms tw sf3 rKernel rMaxMult rhoM Hu Hb Hn Hr Hs Hms Hi Hbef Hws rad xs'.
  destruct (init_conform _ _ _ _ _ _ _ _ Hb Hn Hr Hu Hi) as (C0 & G0 & En & Eo & Em & EM & Ed & _).
  destruct (halo_inserts_adds h0 before (cf_core _ _ _ _ _ C0)) as (h' & Eh & Gh & Ah). assert (h' = h) by congruence. subst h'.
  assert (Ch := adds_conform _ _ _ _ _ _ _ C0 Gh Ah). destruct Ah as (profs0 & Hh & _).
  assert (EMh : h_rMax h = rMax) by (rewrite Hh; exact EM). assert (Eoh : h_origin h = o) by (rewrite Hh; exact Eo).
  destruct (load_sphere_vecs_spec h ws xs ms tw sf3 rKernel rMaxMult rhoM Gh) as (h1 & ws1 & E1 & G1 & Lw & _ & A1); auto.
  - rewrite (cf_bins _ _ _ _ _ Ch). exact Hb.
  - apply Ch.
  - eapply Forall_impl; [|exact Hws]. intros w [->|(norms' & o' & r1 & r2 & b' & n' & rho' & w0 & ss & Hu' & Hb' & Hn' & Hr' & Hrat & Ei & Ess)].
    + apply (zero_worker _ bins _ _ h Hb Ch).
    + destruct (init_conform _ _ _ _ _ _ _ _ Hb' Hn' Hr' Hu' Ei) as (Cw & Gw & _ & _ & Ew1 & Ew2 & _).
      destruct (halo_inserts_adds w0 ss (cf_core _ _ _ _ _ Cw)) as (w' & Ew & Gw' & (pw & Hw & _)). assert (Hww : w' = w) by congruence. rewrite <- Hww.
      apply (core_worker _ _ _ _ _ _ Ch Gw'). rewrite Hw. cbn [with_profs h_rMax h_rMin]. rewrite Ew1, Ew2, Hrat, Em, EM. reflexivity.
  - rewrite EMh, Eoh in *. fold rad xs' in E1, A1.
    assert (Lx : length xs' = length xs). { unfold xs', transform. destruct o as ((?, ?), ?). apply map_length. }
    destruct (halo_inserts_adds h (map (fun k => (nth k xs' (0, 0, 0), rad, nth k ms 0 * INR sf3 / (4 * PI / 3 * rad * rad * rad) / rhoM))
      (filter (fun k => halo_intersect1 h rad (nth k xs' (0, 0, 0))) (filter (fun k => (k mod sf3 =? 0)%nat) (seq 0 (length xs))))) Gh) as (h2 & E2 & G2 & A2).
    exists h1, ws1, h2. split; [exact E1|]. split; [exact E2|]. intros ring i buf Hring Hi' Hbuf.
    assert (Lp : (ring < length (h_profs h))%nat) by (rewrite (gh_profs h Gh), (cf_rings _ _ _ _ _ Ch); exact Hring).
    destruct (nth_error (h_profs h) ring) as [p|] eqn:Ep; [|apply nth_error_None in Ep; lia].
    rewrite <- (cf_n _ _ _ _ _ Ch) in Hi'. rewrite <- (cf_bins _ _ _ _ _ Ch) in Hbuf.
    destruct (get_rhos_adds h h1 _ ring p i Gh A1 Ep Hi' buf Hbuf) as (out1 & -> & L1 & H1).
    destruct (get_rhos_adds h h2 _ ring p i Gh A2 Ep Hi' buf Hbuf) as (out2 & -> & L2 & H2).
    split; [|discriminate]. f_equal. apply nth_ext with (d := 0) (d' := 0); [congruence|]. intros j Hj. rewrite H1, H2 by lia.
    f_equal. f_equal. f_equal. unfold picks, kept. f_equal. apply filter_ext_in. intros k Hk.
    apply filter_In in Hk. destruct Hk as (Hk & _). apply in_seq in Hk.
    rewrite (nth_indep _ false (halo_intersect1 h rad (0, 0, 0))) by (rewrite map_length; lia). apply map_nth.
Qed.
Print Assumptions C67_threads.

Example C67_nonvacuous : used_for_like zero_halo zero_halo /\ strided 10 (1 * 2) (2 * 2) 10 = [2; 6]%nat /\
  Forall (fun v : vec3 => dot3 v v = 1) [(0, 0, 1); (3/5, 0, 4/5)].
Proof.
  split; [left; reflexivity|]. split; [reflexivity|]. repeat constructor; unfold dot3; lra.
Qed.

(** ** C68: Intersect *)

(** A ball that Intersect rejects covers no part of any radial bin between rMin and rMax of any ray from the halo's centre,
    unless it is centred exactly on the halo. *)
Theorem C68_intersect : forall h u c radius lo hi v,
  0 < h_rMin h < h_rMax h -> 0 < radius -> dot3 u u = 1 -> c <> h_origin h ->
  ln (h_rMin h) <= lo -> lo < hi -> hi <= ln (h_rMax h) ->
  halo_intersect1 h radius c = false -> ray_share (h_origin h) u c radius lo hi v -> v = 0.
Proof.
  intros h u c radius lo hi v Hr Hrad Hu Hne Hlo Hlh Hhi Hi (s & e & Ho & Hc & ->).
  rewrite (pruned (h_origin h) u c radius (h_rMin h) (h_rMax h) lo hi s e h); auto; [unfold Rdiv; ring|lra].
Qed.
Print Assumptions C68_intersect.

(** A ball centred on the halo and larger than rMin is rejected although it covers inner bins. *)
Theorem C106_centre_refuted : forall norms n h, halo_init norms (0, 0, 0) 1 8 3 n 0 = Some h ->
  halo_intersect1 h 2 (0, 0, 0) = false /\ ray_share (0, 0, 0) (1, 0, 0) (0, 0, 0) 2 (ln 1) (ln 2) 1.
Proof.
  intros norms n h E. split.
  - unfold halo_init in E. destruct (mapo _ norms); [|discriminate]. destruct (mapo _ norms); [|discriminate]. injection E as <-.
    unfold halo_intersect1. cbn [h_rMin h_rMax h_origin]. destruct (Rltb_spec (1 - 2) 0); [|lra]. cbv zeta.
    destruct (Rltb_spec (0 * 0) ((0 - 0) * (0 - 0) + (0 - 0) * (0 - 0) + (0 - 0) * (0 - 0))); [lra|reflexivity].
  - exists None, (Some (ln 2)). assert (H1 : ln 1 < ln 2) by (apply ln_increasing; lra). split; [exact I|]. split.
    + intros x. unfold dist2_3, along. pose proof (exp_pos x). rewrite <- exp_le_ln by lra. split; [intros H0; split; [exact I|nra]|intros (_ & B); nra].
    + cbn [covered]. unfold Rmax, Rmin. rcase; try (exfalso; lra); field; lra.
Qed.
Print Assumptions C106_centre_refuted.

Example C68_nonvacuous : exists h, halo_init [(0, 0, 1)] (0, 0, 0) 1 8 3 4 0 = Some h /\ halo_intersect1 h 2 (11, 0, 0) = false /\ halo_intersect1 h 2 (9, 0, 0) = true.
Proof.
  destruct (halo_init_good [(0, 0, 1)] (0, 0, 0) 1 8 3 4 0) as (h & E & _ & _ & Eo & _ & _ & _ & E6 & E7 & _); [lia|lia|lra|repeat constructor; unfold dot3; lra|].
  exists h. split; [exact E|]. unfold halo_intersect1. rewrite Eo, E6, E7. destruct (Rltb_spec (1 - 2) 0); [|lra]. cbv zeta.
  split; rlt; reflexivity.
Qed.

(** ** C64: densities along the lines of sight, end to end *)

(** GetRs returns the geometric centres of the bins. *)
Theorem C64_bin_centres : forall norms o rMin rMax bins n rho0 h buf, (0 < bins)%nat -> 0 < rMin < rMax -> length buf = bins ->
  halo_init norms o rMin rMax bins n rho0 = Some h ->
  exists rs, get_rs h buf = Some rs /\ length rs = bins /\
    forall j, (j < bins)%nat -> nth j rs 0 = rMin * exp ((INR j + 1 / 2) * (ln (rMax / rMin) / INR bins)).
Proof.
  intros norms o rMin rMax bins n rho0 h buf Hb Hr Hbuf E. unfold halo_init in E.
  destruct (mapo _ norms); [|discriminate]. destruct (mapo _ norms); [|discriminate]. injection E as <-.
  unfold get_rs. cbn [h_bins h_rMin h_rMax]. change (List.length buf) with (length buf). rewrite Hbuf, Nat.eqb_refl. cbn [negb].
  eexists. split; [reflexivity|]. rewrite map_length, seq_length. split; [reflexivity|]. intros j Hj.
  set (f := fun i : nat => exp (ln rMin + (ln rMax - ln rMin) / INR bins * (INR i + / 2))).
  rewrite (nth_indep _ 0 (f 0%nat)) by (rewrite map_length, seq_length; exact Hj). rewrite map_nth, seq_nth by exact Hj. unfold f.
  rewrite exp_plus, exp_ln by lra. f_equal. f_equal. unfold Rdiv. rewrite (ln_mult rMax (/ rMin)), (ln_Rinv rMin) by (try apply Rinv_0_lt_compat; lra). rewrite Nat.add_0_l. field. apply not_0_INR. lia.
Qed.
Print Assumptions C64_bin_centres.

(** From halo coordinates and particle files to densities. Halos are created as createHalos does and loaded as sphereLoop does
    with any number of workers. Every file that meets the halo contributes its particles (one in sf3), each at its image
    nearest to the halo, as a ball of radius rad with the particle's mass; bin j of line of sight i of a ring then holds the
    sum of the balls' densities weighted by the fraction of the bin they cover (or the background density, if larger).
    Missing: balls for which a ray pointing away may be hit as well, and balls centred exactly on the halo. *)
Theorem C64_shell_densities_partial : forall norms bins n rMinMult rMaxMult defaultRho coords c files workers,
  Forall (fun v : vec3 => dot3 v v = 1) norms -> (0 < bins)%nat -> (2 <= n)%nat -> 0 < rMinMult < rMaxMult ->
  (0 < c_sf3 c)%nat -> 0 < c_rKernelMult c -> c_rMaxMult c = rMaxMult -> (0 < workers)%nat ->
  Forall (fun xr : vec3 * R => 0 < snd xr) coords ->
  Forall (fun f => 0 < f_tw f /\ Forall (in_box (f_tw f)) (f_xs f) /\ (length (f_xs f) <= length (f_ms f))%nat /\
    Forall (fun xr : vec3 * R => in_box (f_tw f) (fst xr)) coords) files ->
  exists halos halos' ws', create_halos norms rMinMult rMaxMult bins n defaultRho coords = Some halos /\
    sphere_loop c workers files halos (repeat zero_halo (workers - 1)) = Some (halos', ws') /\
    forall a x r, nth_error coords a = Some (x, r) ->
    let rMin := r * rMinMult in let rMax := r * rMaxMult in let rad := rMax * c_rKernelMult c / c_rMaxMult c in
    let near_files := filter (fun f => sheet_intersect x rMax (f_origin f) (f_width f) (f_tw f)) files in
    exists h xss, nth_error halos' a = Some h /\
      Forall2 (fun f xs' => Forall2 (near (f_tw f) x) (f_xs f) xs') near_files xss /\
      forall ring norm i, nth_error norms ring = Some norm -> (i < n)%nat ->
      exists u e1 e2, line_segment h ring i = Some (x, u, rMin, rMax) /\ plane_to_volume h ring 1 0 = Some e1 /\ plane_to_volume h ring 0 1 = Some e2 /\
        dot3 u u = 1 /\
        let balls := concat (map (fun fx : PFile * list vec3 =>
          map (fun k => (nth k (snd fx) (0, 0, 0), nth k (f_ms (fst fx)) 0 * INR (c_sf3 c) / (4 * PI / 3 * rad * rad * rad) / f_rhoM (fst fx)))
            (filter (fun k => (k mod c_sf3 c =? 0)%nat) (seq 0 (length (snd fx))))) (combine near_files xss)) in
        (forall b rho, In (b, rho) balls -> b <> x /\
           ((exists t, 0 < t /\ dist2_3 (along x u t) b < rad * rad) \/ no_ghosts3 n x e1 e2 norm b rad)) ->
        forall buf, length buf = bins -> exists out, get_rhos h ring i buf = Some out /\ length out = bins /\
        forall j, (j < bins)%nat ->
          let dr := (ln rMax - ln rMin) / INR bins in
          exists total, ray_total x u rad (ln rMin + INR j * dr) (ln rMin + INR (S j) * dr) balls total /\
            nth j out 0 = Rmax (defaultRho r) total.
Proof.
  intros norms bins n rMinMult rMaxMult defaultRho coords c files workers Hu Hb Hn Hm Hsf Hker EM Hwk Hco Hfiles.
  assert (Hn0 : (0 < n)%nat) by lia.
  destruct (mapo_spec (fun xr : vec * R => halo_init norms (fst xr) (snd xr * rMinMult) (snd xr * rMaxMult) bins n (defaultRho (snd xr))) coords) as (halos & Ec & Lc & Nc).
  { intros (x, r) Hin. rewrite Forall_forall in Hco. specialize (Hco _ Hin). cbn [fst snd] in *.
    destruct (halo_init_good norms x (r * rMinMult) (r * rMaxMult) bins n (defaultRho r)) as (h & E & _); [assumption|assumption|nra|assumption|]. exists h. exact E. }
  set (L := ln rMaxMult - ln rMinMult).
  assert (Hlr : forall r, 0 < r -> ln (r * rMaxMult) - ln (r * rMinMult) = L).
  { intros r Hr. rewrite !ln_mult by lra. unfold L. ring. }
  assert (HH : forall a h, nth_error halos a = Some h -> exists x r, nth_error coords a = Some (x, r) /\ 0 < r /\
    conform (length norms) bins n L h /\ good_halo h /\ h_norms h = norms /\ h_origin h = x /\ h_rMin h = r * rMinMult /\ h_rMax h = r * rMaxMult /\
    h_defaultRho h = defaultRho r /\ forall ring p, nth_error (h_profs h) ring = Some p -> forall off m, rowsum (p_derivs p) off m = 0).
  { intros a h Ea. assert (Hl : (a < length coords)%nat) by (rewrite <- Lc; apply nth_error_Some; congruence).
    destruct (nth_error coords a) as [(x, r)|] eqn:Exr; [|apply nth_error_None in Exr; lia].
    destruct (Nc a (x, r) Exr) as (h' & Eh' & Ei). assert (h' = h) by congruence. subst h'. cbn [fst snd] in Ei.
    assert (Hr : 0 < r). { rewrite Forall_forall in Hco. apply (Hco (x, r)). eapply nth_error_In; exact Exr. }
    assert (Hrr : 0 < r * rMinMult < r * rMaxMult) by nra.
    destruct (init_conform _ _ _ _ _ _ _ _ Hb Hn0 Hrr Hu Ei) as (C & G & E1 & E2 & E3 & E4 & E5 & E6).
    exists x, r. rewrite Hlr in C by exact Hr. auto 12. }
  destruct (sphere_loop_spec c (length norms) bins n L files halos (repeat zero_halo (workers - 1)) Hsf Hb) as (halos' & ws' & El & Ll & _ & _ & Hl).
  - eapply Forall_impl; [|exact Hfiles]. intros f (F1 & F2 & F3 & F4). split; [repeat split; assumption|].
    apply Forall_forall. intros h Hin. apply In_nth_error in Hin. destruct Hin as (a & Ea).
    destruct (HH a h Ea) as (x & r & Exr & _ & _ & _ & _ & -> & _). rewrite Forall_forall in F4. apply (F4 (x, r)). eapply nth_error_In; exact Exr.
  - apply Forall_forall. intros h Hin. apply In_nth_error in Hin. destruct Hin as (a & Ea). destruct (HH a h Ea) as (x & r & _ & _ & C & _). exact C.
  - apply Forall_forall. intros w Hw h C. apply repeat_spec in Hw. subst w. apply (zero_worker _ _ _ _ h Hb C).
  - exists halos, halos', ws'. split; [exact Ec|]. split.
    { rewrite repeat_length in El. replace (workers - 1 + 1)%nat with workers in El by lia. exact El. }
    intros a x r Exr rMin rMax rad near_files.
    destruct (Nc a (x, r) Exr) as (h0 & Eh0 & Ei). destruct (HH a h0 Eh0) as (x' & r' & Exr' & Hr & C0 & G0 & E1 & E2 & E3 & E4 & E5 & E6).
    assert (Hxr : x' = x /\ r' = r) by (split; congruence). destruct Hxr as (-> & ->).
    destruct (Hl a h0 Eh0) as (h & xss & Eh & Ch & F & A).
    assert (Enf : filter (meets h0) files = near_files).
    { unfold near_files. apply filter_ext. intros f. unfold meets. rewrite E2, E4. reflexivity. }
    rewrite Enf, E2 in *. exists h, xss. split; [exact Eh|]. split; [exact F|]. intros ring norm i Enorm Hi.
    rewrite <- E1 in Enorm. destruct (good_ring h0 ring norm G0 Enorm) as (rot & irot & Hun & Er & Hrot & Eir & Hirot).
    destruct (euler_total _ _ _ _ (cos (ring_phi n i), sin (ring_phi n i), 0) (between_angles _ _ _ Hirot)) as (u & Eu).
    destruct (euler_total _ _ _ _ (1, 0, 0) (between_angles _ _ _ Hirot)) as (e1 & Ee1).
    destruct (euler_total _ _ _ _ (0, 1, 0) (between_angles _ _ _ Hirot)) as (e2 & Ee2).
    pose proof (cf_n _ _ _ _ _ C0) as En0. pose proof (cf_bins _ _ _ _ _ C0) as Eb0.
    pose proof A as (profs & Hh & _).
    exists u, e1, e2. split.
    { unfold line_segment, rd. rewrite Hh. cbn [with_profs h_irots h_origin h_rMin h_rMax h_n]. rewrite Eir, En0, Eu, E2, E3, E4. reflexivity. }
    split; [unfold plane_to_volume, rd; rewrite Hh; cbn [with_profs h_irots]; rewrite Eir; exact Ee1|].
    split; [unfold plane_to_volume, rd; rewrite Hh; cbn [with_profs h_irots]; rewrite Eir; exact Ee2|].
    split; [apply (unit_ray _ _ _ _ Hirot Eu)|]. intros balls Hballs buf Hbuf.
    assert (Hring : (ring < length (h_profs h0))%nat).
    { rewrite (gh_profs h0 (cf_core _ _ _ _ _ C0)), <- (gh_norms h0 (cf_core _ _ _ _ _ C0)). apply nth_error_Some. congruence. }
    destruct (nth_error (h_profs h0) ring) as [p|] eqn:Ep; [|apply nth_error_None in Ep; lia].
    assert (Hi0 : (i < h_n h0)%nat) by lia. assert (Hbuf0 : length buf = h_bins h0) by lia.
    destruct (get_rhos_adds h0 h _ ring p i (cf_core _ _ _ _ _ C0) A Ep Hi0 buf Hbuf0) as (out & Eg & Lg & Hg).
    exists out. split; [exact Eg|]. split; [congruence|]. intros j Hj dr.
    assert (Hrad : 0 < rad).
    { unfold rad, rMax. rewrite EM. apply Rdiv_lt_0_compat; [|lra]. apply Rmult_lt_0_compat; [nra|exact Hker]. }
    exists (added h0 (to_spheres rad (filter (fun p => halo_intersect1 h0 rad (fst p)) balls)) ring i j). split.
    + pose proof (added_total h0 ring norm rot irot i u e1 e2 rad j (cf_core _ _ _ _ _ C0)) as HT. rewrite En0, Eb0, E2, E3, E4 in HT.
      fold rMin rMax dr in HT. apply HT; auto; [unfold rMin, rMax; nra].
    + rewrite Hg by lia. rewrite E5, (E6 ring p Ep), Rplus_0_l. f_equal. rewrite loaded_concat, E4. fold rMax. fold rad. reflexivity.
Qed.
Print Assumptions C64_shell_densities_partial.

(** The hypotheses on balls can be met, both by balls a ray runs through and by balls it misses. *)
Example C64_nonvacuous : (exists t, 0 < t /\ dist2_3 (along (0, 0, 0) (1, 0, 0) t) (5, 1, 0) < 2 * 2) /\
  no_ghosts3 12 (0, 0, 0) (1, 0, 0) (0, 1, 0) (0, 0, 1) (-5, 3, 1) 1 /\ Forall (fun v : vec3 => dot3 v v = 1) [(0, 0, 1); (3/5, 0, 4/5)].
Proof.
  split; [exists 5; unfold dist2_3, along; lra|]. split; [|repeat constructor; unfold dot3; lra].
  unfold no_ghosts3, dot3. right; right. split; [|left; lra].
  assert (Hc : 0 <= cos (PI / INR 12) * cos (PI / INR 12)) by (pose proof (Rle_0_sqr (cos (PI / INR 12))) as H; exact H). lra.
Qed.

(** Rays that point away from a ball can be given its density. *)
Lemma ghost_density h cx cy r2 rho lo dr i j : rays_ok h -> 0 < r2 -> r2 <= cx * cx + cy * cy -> cx < 0 -> cy < 0 -> (i < h_n h)%nat ->
  3 * PI / 2 <= ring_phi (h_n h) i -> exists m, (1 <= m)%nat /\
  density lo dr i j (circle_ops h cx cy r2 rho) = INR m * density lo dr i j (two_ops cx cy r2 rho (h_n h) i).
Proof.
  intros Hh Hr Hd Hx Hy Hi Hphi. destruct (circle_ops_spec h cx cy r2 rho Hh Hr) as (_ & _ & E). rewrite E by exact Hi.
  unfold circle_density. destruct (Rltb_spec (cx * cx + cy * cy) r2); [lra|]. exists (visit_count h cx cy r2 i). split; [|reflexivity].
  pose proof (P_range cx cy r2 Hr Hd) as HP. pose proof (P_cos_sin cx cy r2 Hr Hd) as (Hc & Hs). pose proof (D_pos cx cy r2 Hr Hd) as HD.
  pose proof (alpha_range cx cy r2 Hr Hd) as Ha. pose proof PI_RGT_0 as Hpi.
  set (P := atan2 cy cx) in *. set (D := sqrt (cx * cx + cy * cy)) in *. set (al := half_angular_width (cx * cx + cy * cy) r2) in *.
  assert (HP' : P < - (PI / 2)).
  { apply Rnot_le_lt. intros Hc'. destruct (Rle_dec P 0) as [H0|H0].
    - assert (0 <= cos P) by (apply cos_ge_0; lra). nra.
    - assert (0 <= sin P) by (apply sin_ge_0; lra). nra. }
  apply ghost_visited; auto; fold P; fold al; lra.
Qed.

Theorem C64_ghost_refuted : exists h h', halo_init [(0, 0, 1)] (0, 0, 0) 1 16 1 12 0 = Some h /\
  halo_insert h (-10, -1, 0) 7 1 = Some h' /\
  exists u, line_segment h' 0 11 = Some ((0, 0, 0), u, 1, 16) /\
    (forall t, 0 < t -> 7 * 7 < dist2_3 (along (0, 0, 0) u t) (-10, -1, 0)) /\
    exists d, get_rhos h' 0 11 [0] = Some [d] /\ 0 < d.
Proof.
  assert (Hu : Forall (fun v : vec3 => dot3 v v = 1) [(0, 0, 1)]) by (repeat constructor; unfold dot3; lra).
  destruct (halo_init_good [(0, 0, 1)] (0, 0, 0) 1 16 1 12 0) as (h & E & (G & Gi) & E1 & E2 & E3 & E4 & E5 & E6 & E7 & E8 & E9); [lia|lia|lra|exact Hu|].
  destruct (halo_inserts_adds h [((-10, -1, 0), 7, 1)] G) as (h' & Eh & G' & A). cbn [halo_inserts] in Eh.
  destruct (halo_insert h (-10, -1, 0) 7 1) as [h2|] eqn:Ei; [|discriminate]. injection Eh as ->.
  exists h, h'. split; [exact E|]. split; [exact Ei|].
  assert (En : nth_error (h_norms h) 0 = Some (0, 0, 1)) by (rewrite E1; reflexivity).
  destruct (good_ring h 0 (0, 0, 1) (conj G Gi) En) as (rot & irot & Hun & Er & Hrot & Eir & Hirot). fold zaxis in Hrot, Hirot.
  assert (Hid : forall m v, euler_between zaxis zaxis zero9 = Some m -> rotate_vec v m = Some v).
  { intros m ((x, y), z) Hm. apply between_angles in Hm. rewrite (rotate_vals _ _ _ _ _ _ _ Hm). cbv zeta.
    set (ph := fst (spherical_angles zaxis)). replace (snd (spherical_angles zaxis) - snd (spherical_angles zaxis)) with 0 by ring.
    replace (ph - PI / 2) with (- (PI / 2 - ph)) by ring. rewrite cos_neg, sin_neg, cos_0, sin_0.
    pose proof (sin2_cos2 (PI / 2 - ph)) as Hsc. unfold Rsqr in Hsc. set (s := sin (PI / 2 - ph)) in *. set (k := cos (PI / 2 - ph)) in *.
    f_equal. apply f_equal2; [apply f_equal2|].
    - transitivity ((s * s + k * k) * x); [ring|rewrite Hsc; ring].
    - transitivity ((s * s + k * k) * y); [ring|rewrite Hsc; ring].
    - ring. }
  assert (Hphi : ring_phi 12 11 = - (PI / 6) + 2 * PI) by (unfold ring_phi; replace (INR 11) with 11 by (cbn; lra); replace (INR 12) with 12 by (cbn; lra); lra).
  assert (Hcos : cos (ring_phi 12 11) = sqrt 3 / 2) by (rewrite Hphi, cos_plus, cos_2PI, sin_2PI, cos_neg, cos_PI6; lra).
  assert (Hsin : sin (ring_phi 12 11) = - (1 / 2)) by (rewrite Hphi, sin_plus, cos_2PI, sin_2PI, sin_neg, sin_PI6; lra).
  assert (Hs3 : sqrt 3 * sqrt 3 = 3) by (apply sqrt_sqrt; lra). assert (Hs3b : 17/10 < sqrt 3 < 18/10).
  { pose proof (sqrt_pos 3). split; nra. }
  pose proof A as (profs & Hh & _).
  exists (sqrt 3 / 2, - (1 / 2), 0). split; [|split].
  - unfold line_segment, rd. rewrite Hh. cbn [with_profs h_irots h_origin h_rMin h_rMax h_n]. rewrite Eir, E5, (Hid _ _ Hirot), Hcos, Hsin, E2, E6, E7. reflexivity.
  - intros t Ht. unfold dist2_3, along. nra.
  - destruct (nth_error (h_profs h) 0) as [p|] eqn:Ep; [|rewrite E9 in Ep; discriminate].
    destruct (get_rhos_adds h h' _ 0%nat p 11%nat G A Ep) with (buf := [0]) as (out & Eg & Lg & Hg); [lia|rewrite E4; reflexivity|].
    rewrite E4 in Lg. destruct out as [|d [|]]; try discriminate. exists d. split; [exact Eg|].
    specialize (Hg 0%nat ltac:(lia)). cbn [nth] in Hg. rewrite Hg.
    assert (Hz : rowsum (p_derivs p) (11 * h_bins h) 1 = 0).
    { rewrite E9 in Ep. cbn [map nth_error] in Ep. injection Ep as <-. apply ring_init_rows. }
    rewrite Hz, E8, Rplus_0_l. unfold added, ring_rots. rewrite En, Er. cbn [flat_map]. rewrite app_nil_r.
    unfold ring_ops. rewrite E2. replace (sphere_intersect_ring (0, 0, 1) (-10 - 0, -1 - 0, 0 - 0) 7) with true.
    2:{ unfold sphere_intersect_ring. symmetry. apply andb_true_iff. rewrite !Rltb_true. lra. }
    rewrite (Hid _ _ Hrot). rewrite E4, E6, E7.
    destruct (ghost_density h (-10 - 0) (-1 - 0) (7 * 7 - (0 - 0) * (0 - 0)) 1 (ln 1) ((ln 16 - ln 1) / INR 1) 11 0) as (m & Hm & Hd); try lra.
    + apply (gh_rays h G).
    + lia.
    + rewrite E5, Hphi. pose proof PI_RGT_0. lra.
    + rewrite Hd. apply Rlt_le_trans with (2 := Rmax_r _ _). apply Rmult_lt_0_compat; [apply lt_0_INR; lia|].
      rewrite E5. unfold two_ops. rewrite Hcos, Hsin. unfold two_val_intr_dist.
      set (b := (-1 - 0) * (sqrt 3 / 2) - (-10 - 0) * - (1 / 2)).
      assert (Hb : b * b = 103/4 + 5 * sqrt 3) by (unfold b; nra). rewrite Hb.
      destruct (Rltb_spec (7 * 7 - (0 - 0) * (0 - 0) - (103 / 4 + 5 * sqrt 3)) 0); [lra|].
      set (mid := sqrt ((-10 - 0) * (-10 - 0) + (-1 - 0) * (-1 - 0) - (103 / 4 + 5 * sqrt 3))).
      set (q := sqrt (7 * 7 - (0 - 0) * (0 - 0) - (103 / 4 + 5 * sqrt 3))).
      assert (Hmid : 8 <= mid <= 9).
      { split; [rewrite <- (sqrt_square 8) by lra|rewrite <- (sqrt_square 9) by lra]; apply sqrt_le_1_alt; lra. }
      assert (Hq : 3 <= q <= 4).
      { split; [rewrite <- (sqrt_square 3) by lra|rewrite <- (sqrt_square 4) by lra]; apply sqrt_le_1_alt; lra. }
      rewrite density_single. unfold go_log. destruct (Rltb_spec 0 (mid - q)); [|lra]. destruct (Rltb_spec 0 (mid + q)); [|lra].
      assert (H1 : ln 1 < ln (mid - q)) by (apply ln_increasing; lra). assert (H2 : ln (mid - q) < ln (mid + q)) by (apply ln_increasing; lra).
      assert (H3 : ln (mid + q) < ln 16) by (apply ln_increasing; lra).
      rewrite Rmult_1_l. apply Rdiv_lt_0_compat; [|cbn; lra]. cbn [covered INR]. unfold Rmax, Rmin. rcase; lra.
Qed.
Print Assumptions C64_ghost_refuted.
