(** * Inserting spheres into a halo. *)
From Coq Require Import Reals Lra Lia ZArith List Bool.
From Verif Require Import LosModel LosSpec LoopFacts LosProofs LosProofs2 LosProofs3 LosProofs4 LosProofs5 LosProofs6 InterpProofs ShellProofs ShellModel.
Import List ListNotations.
Local Open Scope R_scope.

Definition with_profs (h : Halo) (profs : list Ring) : Halo :=
  mkHalo (h_origin h) (h_rings h) (h_bins h) (h_n h) (h_rMin h) (h_rMax h) (h_ringVecs h) (h_dPhi h)
    (h_rots h) (h_irots h) (h_norms h) profs (h_defaultRho h).

Definition zaxis : vec := (0, 0, 1).

(** The parts of a halo that Insert uses are laid out as Init does. *)
Record good_core (h : Halo) : Prop := {
  gh_rays : rays_ok h;
  gh_norms : length (h_norms h) = h_rings h;
  gh_profs : length (h_profs h) = h_rings h;
  gh_ring : forall ring norm, nth_error (h_norms h) ring = Some norm -> dot3 norm norm = 1 /\
    (exists rot, nth_error (h_rots h) ring = Some rot /\ euler_between norm zaxis zero9 = Some rot);
  gh_prof : forall ring p, nth_error (h_profs h) ring = Some p -> good p /\ p_n p = h_n h /\ p_bins p = h_bins h /\
    p_lowR p = ln (h_rMin h) /\ p_highR p = ln (h_rMax h) }.

(** And so are the inverse rotations, used by LineSegment and PlaneToVolume. *)
Definition good_halo (h : Halo) : Prop := good_core h /\
  forall ring norm, nth_error (h_norms h) ring = Some norm ->
    exists irot, nth_error (h_irots h) ring = Some irot /\ euler_between zaxis norm zero9 = Some irot.

Lemma mapo_spec {A B} (f : A -> option B) l : (forall a, In a l -> exists b, f a = Some b) ->
  exists l', mapo f l = Some l' /\ length l' = length l /\ forall i a, nth_error l i = Some a -> exists b, nth_error l' i = Some b /\ f a = Some b.
Proof.
  induction l as [|a l IH]; intros H; cbn [mapo].
  - exists []. repeat split; auto. intros [|i] b; discriminate.
  - destruct (H a (or_introl eq_refl)) as (b & Eb). rewrite Eb.
    destruct IH as (l' & -> & L & N); [intros x Hx; apply H; right; exact Hx|].
    exists (b :: l'). split; [reflexivity|]. split; [cbn; congruence|]. intros [|i] x; cbn [nth_error].
    + intros [= <-]. eauto.
    + apply N.
Qed.

Lemma halo_init_good norms origin rMin rMax bins n rho0 :
  (0 < bins)%nat -> (0 < n)%nat -> 0 < rMin < rMax -> Forall (fun v : vec3 => dot3 v v = 1) norms ->
  exists h, halo_init norms origin rMin rMax bins n rho0 = Some h /\ good_halo h /\ h_norms h = norms /\ h_origin h = origin /\
    h_rings h = length norms /\ h_bins h = bins /\ h_n h = n /\ h_rMin h = rMin /\ h_rMax h = rMax /\ h_defaultRho h = rho0 /\
    h_profs h = map (fun _ => ring_init (ln rMin) (ln rMax) bins n) norms.
Proof.
  intros Hb Hn Hr Hnorm. unfold halo_init. fold zaxis zero9.
  destruct (mapo_spec (fun v => euler_between v zaxis zero9) norms) as (rots & -> & L1 & N1); [intros; apply between_total|].
  destruct (mapo_spec (fun v => euler_between zaxis v zero9) norms) as (irots & -> & L2 & N2); [intros; apply between_total|].
  eexists. split; [reflexivity|]. split.
  - split; [|cbn; intros ring norm E; apply (N2 _ _ E)]. constructor; cbn [h_rings h_norms h_profs h_rots h_irots h_n h_bins h_rMin h_rMax].
    + unfold rays_ok; cbn. auto.
    + reflexivity.
    + apply map_length.
    + intros ring norm E. rewrite Forall_forall in Hnorm. split; [apply Hnorm; eapply nth_error_In; exact E|].
      apply (N1 _ _ E).
    + intros ring p E. rewrite nth_error_map in E. destruct (nth_error norms ring) eqn:En; [|discriminate]. injection E as <-.
      split; [apply ring_init_good; [exact Hb|apply ln_increasing; lra]|]. cbn. auto.
  - cbn. repeat split.
Qed.

Definition sphere := (vec * R * R)%type.

(** The insertions a sphere causes in one ring. *)
Definition ring_ops (h : Halo) (s : sphere) (norm : vec) (rot : matrix) : list plateau :=
  let '(v, radius, rho) := s in
  let '(x, y, z) := v in let '(x0, y0, z0) := h_origin h in
  let d := (x - x0, y - y0, z - z0) in
  if sphere_intersect_ring norm d radius then
    match rotate_vec d rot with
    | Some (cx, cy, cz) => circle_ops h cx cy (radius * radius - cz * cz) rho
    | None => []
    end
  else [].

(** The rotated sphere centre has the component along the ring's normal as third coordinate. *)
Lemma rotated_z norm rot d cx cy cz : dot3 norm norm = 1 -> euler_between norm zaxis zero9 = Some rot ->
  rotate_vec d rot = Some (cx, cy, cz) -> cz = dot3 norm d.
Proof.
  intros Hn Hm Hd. destruct norm as ((nx, ny), nz). unfold dot3 in Hn.
  assert (Hz : rotate_vec (nx, ny, nz) rot = Some (0, 0, 1)).
  { pose proof (between_maps nx ny nz 0 0 1 rot) as H. cbv zeta in H. rewrite H; [| lra | lra | exact Hm].
    rewrite Hn. replace (0 * 0 + 0 * 0 + 1 * 1) with 1 by ring. rewrite sqrt_1. f_equal. apply f_equal2; [apply f_equal2|]; field. }
  pose proof (between_isometry _ _ _ _ _ _ _ Hm Hz Hd) as E. unfold dot3 at 1 in E. lra.
Qed.

Lemma insert_to_ring_ops h v radius rho norm rot p x0 y0 z0 x y z :
  h_origin h = (x0, y0, z0) -> v = (x, y, z) ->
  rays_ok h -> dot3 norm norm = 1 -> euler_between norm zaxis zero9 = Some rot ->
  sphere_intersect_ring norm (x - x0, y - y0, z - z0) radius = true ->
  insert_to_ring h (x - x0, y - y0, z - z0) radius rho rot p = inserts p (ring_ops h (v, radius, rho) norm rot) /\
  ops_ok (h_n h) (ring_ops h (v, radius, rho) norm rot).
Proof.
  intros Ho -> Hh Hn Hm Hs. unfold insert_to_ring, ring_ops. rewrite Ho, Hs.
  destruct (euler_total _ _ _ _ (x - x0, y - y0, z - z0) (between_angles _ _ _ Hm)) as (((cx, cy), cz) & Er). rewrite Er.
  pose proof (rotated_z _ _ _ _ _ _ Hn Hm Er) as Ez.
  assert (Hr2 : 0 < radius * radius - cz * cz).
  { unfold sphere_intersect_ring in Hs. destruct norm as ((nx, ny), nz). apply andb_true_iff in Hs. rewrite !Rltb_true in Hs.
    unfold dot3 in Ez. rewrite <- Ez in Hs. nra. }
  destruct (Rltb_spec (radius * radius - cz * cz) 0); [lra|].
  destruct (circle_ops_spec h cx cy (radius * radius - cz * cz) rho Hh Hr2) as (Hok & E & _).
  split; [|exact Hok]. rewrite <- E. reflexivity.
Qed.

Lemma ring_ops_ok h s norm rot : rays_ok h -> dot3 norm norm = 1 -> euler_between norm zaxis zero9 = Some rot ->
  ops_ok (h_n h) (ring_ops h s norm rot).
Proof.
  intros Hh Hn Hm. destruct s as ((v, radius), rho). destruct v as ((x, y), z). destruct (h_origin h) as ((x0, y0), z0) eqn:Ho.
  destruct (sphere_intersect_ring norm (x - x0, y - y0, z - z0) radius) eqn:Hs.
  - apply (insert_to_ring_ops h (x, y, z) radius rho norm rot (ring_init 0 1 1 1) x0 y0 z0 x y z); auto.
  - unfold ring_ops. rewrite Ho, Hs. constructor.
Qed.

Lemma halo_insert_spec h v radius rho : good_core h ->
  exists profs', halo_insert h v radius rho = Some (with_profs h profs') /\ length profs' = length (h_profs h) /\
    forall ring norm rot p, nth_error (h_norms h) ring = Some norm -> nth_error (h_rots h) ring = Some rot -> nth_error (h_profs h) ring = Some p ->
      exists p', nth_error profs' ring = Some p' /\ inserts p (ring_ops h (v, radius, rho) norm rot) = Some p'.
Proof.
  intros G. destruct v as ((x, y), z) eqn:Ev. unfold halo_insert. destruct (h_origin h) as ((x0, y0), z0) eqn:Ho.
  set (body := fun ring profs => _).
  destruct (loop_inv (fun m (profs : list Ring) => length profs = length (h_profs h) /\
     (forall ring, (m <= ring)%nat -> nth_error profs ring = nth_error (h_profs h) ring) /\
     (forall ring norm rot p, (ring < m)%nat -> nth_error (h_norms h) ring = Some norm -> nth_error (h_rots h) ring = Some rot -> nth_error (h_profs h) ring = Some p ->
      exists p', nth_error profs ring = Some p' /\ inserts p (ring_ops h (v, radius, rho) norm rot) = Some p'))
     (h_rings h) body (h_profs h)) as (profs' & E & I1 & I2 & I3).
  - repeat split; auto. intros; lia.
  - intros m profs Hm (I1 & I2 & I3). unfold body.
    destruct (nth_error (h_norms h) m) as [norm|] eqn:En; [|apply nth_error_None in En; rewrite (gh_norms h G) in En; lia].
    unfold rd at 1. rewrite En.
    destruct (gh_ring h G m norm En) as (Hu & (rot & Er & Hm')).
    destruct (nth_error (h_profs h) m) as [p|] eqn:Ep; [|apply nth_error_None in Ep; rewrite (gh_profs h G) in Ep; lia].
    destruct (gh_prof h G m p Ep) as (Gp & Np & Bp & _).
    destruct (sphere_intersect_ring norm (x - x0, y - y0, z - z0) radius) eqn:Hs.
    + unfold rd. rewrite Er, I2, Ep by lia.
      destruct (insert_to_ring_ops h v radius rho norm rot p x0 y0 z0 x y z Ho Ev (gh_rays h G) Hu Hm' Hs) as (Ei & Hok).
      rewrite Ei. destruct (inserts_spec _ p Gp (eq_ind_r (fun k => ops_ok k _) Hok Np)) as (p' & E' & _). rewrite E'.
      assert (Hlt : (m < length profs)%nat) by (rewrite I1, (gh_profs h G); exact Hm).
      destruct (wr_some profs m p' p Hlt) as (profs2 & Ew & Lw & Nw). exists profs2. split; [exact Ew|].
      assert (Ne : forall k, nth_error profs2 k = if (k =? m)%nat then Some p' else nth_error profs k).
      { intros k. destruct (Nat.lt_ge_cases k (length profs2)).
        - rewrite (nth_error_nth' profs2 p H), Nw. destruct (k =? m)%nat; [reflexivity|]. symmetry. apply nth_error_nth'. lia.
        - rewrite (proj2 (nth_error_None profs2 k)) by lia. destruct (Nat.eqb_spec k m); [lia|].
          symmetry. apply nth_error_None. lia. }
      split; [congruence|]. split.
      * intros k Hk. rewrite Ne. destruct (Nat.eqb_spec k m); [lia|]. apply I2; lia.
      * intros k norm' rot' q Hk A B C. rewrite Ne. destruct (Nat.eqb_spec k m) as [->|].
        -- exists p'. split; [reflexivity|]. congruence.
        -- apply (I3 k norm' rot' q); auto; lia.
    + exists profs. split; [reflexivity|]. split; [exact I1|]. split; [intros k Hk; apply I2; lia|].
      intros k norm' rot' q Hk A B C. destruct (Nat.eq_dec k m) as [->|].
      * exists q. split; [rewrite I2 by lia; exact C|]. assert (norm' = norm) by congruence. subst norm'.
        unfold ring_ops. rewrite Ho. rewrite Ev. rewrite Hs. reflexivity.
      * apply (I3 k norm' rot' q); auto; lia.
  - rewrite E. exists profs'. split; [unfold with_profs; rewrite Ho; reflexivity|]. split; [exact I1|].
    intros ring norm rot p A B C. rewrite <- Ev. apply I3; auto.
    assert (Hl : (ring < length (h_norms h))%nat) by (apply nth_error_Some; congruence). rewrite (gh_norms h G) in Hl. exact Hl.
Qed.

(** A sequence of Insert calls on a halo. *)
Fixpoint halo_inserts (h : Halo) (ss : list sphere) : option Halo :=
  match ss with [] => Some h | (v, radius, rho) :: rest => do h' <- halo_insert h v radius rho; halo_inserts h' rest end.

Lemma good_with_profs h profs' : good_core h -> length profs' = length (h_profs h) ->
  (forall ring p, nth_error profs' ring = Some p -> good p /\ p_n p = h_n h /\ p_bins p = h_bins h /\ p_lowR p = ln (h_rMin h) /\ p_highR p = ln (h_rMax h)) ->
  good_core (with_profs h profs').
Proof.
  intros [A B C D E] L H. constructor; cbn; auto. congruence.
Qed.

Lemma halo_inserts_spec ss : forall h, good_core h ->
  exists profs', halo_inserts h ss = Some (with_profs h profs') /\ length profs' = length (h_profs h) /\ good_core (with_profs h profs') /\
    forall ring norm rot p, nth_error (h_norms h) ring = Some norm -> nth_error (h_rots h) ring = Some rot -> nth_error (h_profs h) ring = Some p ->
      exists p', nth_error profs' ring = Some p' /\ inserts p (flat_map (fun s => ring_ops h s norm rot) ss) = Some p'.
Proof.
  induction ss as [|((v, radius), rho) ss IH]; intros h G; cbn [halo_inserts flat_map].
  - exists (h_profs h). split; [destruct h; reflexivity|]. split; [reflexivity|]. split; [destruct h; exact G|].
    intros ring norm rot p A B C. exists p. split; [exact C|reflexivity].
  - destruct (halo_insert_spec h v radius rho G) as (profs1 & -> & L1 & N1).
    assert (G1 : good_core (with_profs h profs1)).
    { apply good_with_profs; auto. intros ring p' E'.
      assert (Hl : (ring < length profs1)%nat) by (apply nth_error_Some; congruence). rewrite L1, (gh_profs h G) in Hl.
      destruct (nth_error (h_norms h) ring) as [norm|] eqn:En; [|apply nth_error_None in En; rewrite (gh_norms h G) in En; lia].
      destruct (gh_ring h G ring norm En) as (Hu & (rot & Er & Hm)).
      destruct (nth_error (h_profs h) ring) as [p|] eqn:Ep; [|apply nth_error_None in Ep; rewrite (gh_profs h G) in Ep; lia].
      destruct (gh_prof h G ring p Ep) as (Gp & Np & Bp & Lp & Hp).
      destruct (N1 ring norm rot p En Er Ep) as (p2 & E2 & Ei).
      assert (p2 = p') by congruence. subst p2.
      destruct (inserts_spec (ring_ops h (v, radius, rho) norm rot) p Gp) as (p3 & E3 & G3 & (S1 & S2 & S3 & S4 & S5) & _).
      { rewrite Np. apply ring_ops_ok; [apply (gh_rays h G)|exact Hu|exact Hm]. }
      assert (p3 = p') by congruence. subst p3. split; [exact G3|]. repeat split; congruence. }
    destruct (IH (with_profs h profs1) G1) as (profs2 & -> & L2 & G2 & N2).
    exists profs2. split; [reflexivity|]. split; [cbn in L2; congruence|]. split; [exact G2|].
    intros ring norm rot p A B C. destruct (N1 ring norm rot p A B C) as (p1 & E1 & Ei1).
    destruct (N2 ring norm rot p1 A B E1) as (p2 & E2 & Ei2).
    exists p2. split; [exact E2|]. rewrite inserts_app, Ei1. exact Ei2.
Qed.

(** ** The geometry in space *)

(** Points of the line of sight (from o in direction u) inside the sphere. *)
Definition inside3 (o u c : vec3) (radius : R) (t : R) : Prop := dist2_3 (along o u t) c <= radius * radius.

Lemma inside3_iff norm rot irot o u x y z radius phi cx cy cz t x0 y0 z0 :
  euler_between norm zaxis zero9 = Some rot -> euler_between zaxis norm zero9 = Some irot ->
  o = (x0, y0, z0) -> rotate_vec (cos phi, sin phi, 0) irot = Some u ->
  rotate_vec (x - x0, y - y0, z - z0) rot = Some (cx, cy, cz) ->
  inside3 o u (x, y, z) radius t <-> inside2 cx cy (radius * radius - cz * cz) phi t.
Proof.
  intros Hm Hm' -> Hu Hd. pose proof (between_inverse _ _ _ _ _ _ Hm' Hm Hu) as Hu'.
  assert (E1 := between_isometry _ _ _ _ _ _ _ Hm Hu' Hu'). assert (E2 := between_isometry _ _ _ _ _ _ _ Hm Hu' Hd).
  assert (E3 := between_isometry _ _ _ _ _ _ _ Hm Hd Hd).
  destruct u as ((a, b), c). unfold inside3, inside2, dist2_3, along. unfold dot3 in *.
  pose proof (sin2_cos2 phi) as Hsc. unfold Rsqr in Hsc.
  assert (F1 : (x0 + t * a - x) * (x0 + t * a - x) + (y0 + t * b - y) * (y0 + t * b - y) + (z0 + t * c - z) * (z0 + t * c - z) =
    t * t * (a * a + b * b + c * c) - 2 * t * (a * (x - x0) + b * (y - y0) + c * (z - z0)) + ((x - x0) * (x - x0) + (y - y0) * (y - y0) + (z - z0) * (z - z0))) by ring.
  assert (F2 : (t * cos phi - cx) * (t * cos phi - cx) + (t * sin phi - cy) * (t * sin phi - cy) =
    t * t * (cos phi * cos phi + sin phi * sin phi + 0 * 0) - 2 * t * (cos phi * cx + sin phi * cy + 0 * cz) + (cx * cx + cy * cy)) by ring.
  rewrite F1, F2, <- E1, <- E2, <- E3. split; intros; lra.
Qed.

(** A sphere that does not reach into the plane of the ring covers no part of a ray (it may touch it in one point). *)
Lemma plane_miss cx cy r2 phi : r2 <= 0 ->
  exists s e, ordered s e /\ log_chord (inside2 cx cy r2 phi) s e /\ forall lo hi, covered s e lo hi = 0.
Proof.
  intros Hr. set (b := cy * cos phi - cx * sin phi). set (dir := cx * cos phi + cy * sin phi).
  assert (Hiff : forall t, inside2 cx cy r2 phi t <-> (t - dir) * (t - dir) <= r2 - b * b) by (intros; apply inside2_iff).
  destruct (Rle_dec 0 (r2 - b * b)) as [H0|H0]; [destruct (Rlt_dec 0 dir) as [Hd|Hd]|].
  - assert (E : r2 - b * b = 0) by nra. exists (Some (ln dir)), (Some (ln dir)). split; [cbn; lra|]. split.
    + intros x. rewrite Hiff, E. split.
      * intros H. assert (exp x = dir) by nra. rewrite <- H1, ln_exp. lra.
      * intros (A & B). assert (x = ln dir) by lra. subst x. rewrite exp_ln by exact Hd. lra.
    + intros lo hi. cbn [covered]. unfold Rmax, Rmin. rcase; lra.
  - exists None, None. split; [exact I|]. split; [|reflexivity]. intros x. rewrite Hiff. pose proof (exp_pos x). split; [intros; nra|intros (_ & [])].
  - exists None, None. split; [exact I|]. split; [|reflexivity]. intros x. rewrite Hiff. split; [|intros (_ & [])].
    intros H. pose proof (Rle_0_sqr (exp x - dir)) as Hq. unfold Rsqr in Hq. lra.
Qed.

Lemma ring_share h v radius rho ring norm rot irot u e1 e2 lo dr i j :
  good_core h -> (2 <= h_n h)%nat -> (i < h_n h)%nat -> 0 < radius ->
  nth_error (h_norms h) ring = Some norm -> dot3 norm norm = 1 ->
  euler_between norm zaxis zero9 = Some rot -> euler_between zaxis norm zero9 = Some irot ->
  rotate_vec (cos (ring_phi (h_n h) i), sin (ring_phi (h_n h) i), 0) irot = Some u ->
  rotate_vec (1, 0, 0) irot = Some e1 -> rotate_vec (0, 1, 0) irot = Some e2 ->
  (exists t, 0 < t /\ dist2_3 (along (h_origin h) u t) v < radius * radius) \/ no_ghosts3 (h_n h) (h_origin h) e1 e2 norm v radius ->
  exists s e, ordered s e /\ log_chord (inside3 (h_origin h) u v radius) s e /\
    density lo dr i j (ring_ops h (v, radius, rho) norm rot) = rho * (covered s e (lo + INR j * dr) (lo + INR (S j) * dr) / dr).
Proof.
  intros G Hn Hi Hrad En Hunit Hm Hm' Hu H1 H2 Hcase.
  destruct v as ((x, y), z). destruct (h_origin h) as ((x0, y0), z0) eqn:Ho.
  destruct (euler_total _ _ _ _ (x - x0, y - y0, z - z0) (between_angles _ _ _ Hm)) as (((cx, cy), cz) & Er).
  pose proof (rotated_z _ _ _ _ _ _ Hunit Hm Er) as Ez.
  set (phi := ring_phi (h_n h) i) in *.
  assert (Hiff : forall t, inside3 (x0, y0, z0) u (x, y, z) radius t <-> inside2 cx cy (radius * radius - cz * cz) phi t).
  { intros t. apply (inside3_iff norm rot irot (x0, y0, z0) u x y z radius phi cx cy cz t x0 y0 z0); auto. }
  assert (Hchord : forall s e, log_chord (inside2 cx cy (radius * radius - cz * cz) phi) s e -> log_chord (inside3 (x0, y0, z0) u (x, y, z) radius) s e).
  { intros s e H w. rewrite Hiff. apply H. }
  assert (Ex : dot3 e1 (x - x0, y - y0, z - z0) = cx).
  { pose proof (between_inverse _ _ _ _ _ _ Hm' Hm H1) as H1'. rewrite <- (between_isometry _ _ _ _ _ _ _ Hm H1' Er). unfold dot3. ring. }
  assert (Ey : dot3 e2 (x - x0, y - y0, z - z0) = cy).
  { pose proof (between_inverse _ _ _ _ _ _ Hm' Hm H2) as H2'. rewrite <- (between_isometry _ _ _ _ _ _ _ Hm H2' Er). unfold dot3. ring. }
  unfold ring_ops. rewrite Ho.
  assert (Hsir : sphere_intersect_ring norm (x - x0, y - y0, z - z0) radius = Rltb cz radius && Rltb (- radius) cz).
  { unfold sphere_intersect_ring. destruct norm as ((nx, ny), nz). unfold dot3 in Ez. rewrite <- Ez. reflexivity. }
  rewrite Hsir.
  destruct (Rltb_spec cz radius) as [Hz1|Hz1]; cbn [andb].
  1: destruct (Rltb_spec (- radius) cz) as [Hz2|Hz2].
  - rewrite Er. assert (Hr2 : 0 < radius * radius - cz * cz) by nra.
    destruct (circle_ops_spec h cx cy (radius * radius - cz * cz) rho (gh_rays h G) Hr2) as (_ & _ & Hd). rewrite Hd by exact Hi.
    destruct (Rle_dec ((cy * cos phi - cx * sin phi) * (cy * cos phi - cx * sin phi)) (radius * radius - cz * cz)) as [Hb|Hb].
    + destruct (Rlt_dec 0 (cx * cos phi + cy * sin phi)) as [Hdir|Hdir].
      * destruct (circle_hit h cx cy (radius * radius - cz * cz) rho lo dr i j (gh_rays h G) Hn Hr2 Hi) as (s & e & A & B & C).
        { exists (cx * cos phi + cy * sin phi). split; [exact Hdir|]. apply inside2_iff. fold phi. rewrite Rminus_diag_eq by reflexivity. lra. }
        exists s, e. auto.
      * destruct (Rlt_dec (cx * cx + cy * cy) (radius * radius - cz * cz)) as [Hin|Hin].
        -- destruct (circle_hit h cx cy (radius * radius - cz * cz) rho lo dr i j (gh_rays h G) Hn Hr2 Hi) as (s & e & A & B & C).
           { destruct (one_chord cx cy (radius * radius - cz * cz) rho (h_n h) i Hin) as (e & _ & Hc).
             exists (exp e). split; [apply exp_pos|]. apply Hc. split; [exact I|lra]. }
           exists s, e. auto.
        -- assert (Hmiss : log_chord (inside2 cx cy (radius * radius - cz * cz) phi) None None).
           { apply two_miss; [lra|]. left; lra. }
           exists None, None. split; [exact I|]. split; [apply Hchord; exact Hmiss|]. cbn [covered]. unfold Rdiv. rewrite Rmult_0_l, Rmult_0_r.
           destruct Hcase as [(t & Ht & Hin')|Hng].
           ++ exfalso. apply (Hmiss (ln t)). rewrite exp_ln by exact Ht. apply Hiff. unfold inside3. lra.
           ++ apply circle_miss; auto; [apply (gh_rays h G)| |].
              ** unfold no_ghosts3 in Hng. cbv zeta in Hng. rewrite Ex, Ey, <- Ez in Hng.
                 destruct Hng as [Hng|[Hng|Hng]]; [|left; exact Hng|right; exact Hng].
                 exfalso. unfold Rabs in Hng. destruct (Rcase_abs cz); lra.
              ** fold phi. intros (t & Ht & Hin'). apply (Hmiss (ln t)). rewrite exp_ln by exact Ht. exact Hin'.
    + apply Rnot_le_lt in Hb. unfold circle_density.
      pose proof (b_dir cx cy phi) as Hbd. cbv zeta in Hbd.
      assert (Hge : radius * radius - cz * cz <= cx * cx + cy * cy) by (pose proof (Rle_0_sqr (cx * cos phi + cy * sin phi)) as Hq; unfold Rsqr in Hq; lra).
      destruct (Rltb_spec (cx * cx + cy * cy) (radius * radius - cz * cz)); [lra|].
      exists None, None. split; [exact I|]. split; [apply Hchord; apply two_miss; [exact Hge|right; exact Hb]|].
      rewrite two_ops_far by exact Hb. cbn [density covered]. unfold Rdiv. ring.
  - destruct (plane_miss cx cy (radius * radius - cz * cz) phi) as (s & e & A & B & C); [nra|].
    exists s, e. split; [exact A|]. split; [apply Hchord; exact B|]. rewrite C. cbn [density]. unfold Rdiv. ring.
  - destruct (plane_miss cx cy (radius * radius - cz * cz) phi) as (s & e & A & B & C); [nra|].
    exists s, e. split; [exact A|]. split; [apply Hchord; exact B|]. rewrite C. cbn [density]. unfold Rdiv. ring.
Qed.
