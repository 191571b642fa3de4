(** * Densities along lines of sight, from halo coordinates and files. *)
From Coq Require Import Reals Lra Lia ZArith List Bool Permutation.
From Verif Require Import LosModel LosSpec LoopFacts LosProofs LosProofs2 LosProofs3 LosProofs4 LosProofs5 LosProofs6 LosProofs7 LosProofs8 LosProofs9 LosProofs10 InterpProofs ShellProofs ShellModel.
Import List ListNotations.
Local Open Scope R_scope.

Definition ball_ok (n : nat) (o u e1 e2 norm c : vec3) (radius : R) : Prop :=
  c <> o /\ ((exists t, 0 < t /\ dist2_3 (along o u t) c < radius * radius) \/ no_ghosts3 n o e1 e2 norm c radius).

Definition to_spheres (rad : R) (ps : list (vec3 * R)) : list sphere := map (fun p : vec3 * R => (fst p, rad, snd p)) ps.

Lemma good_ring h ring norm : good_halo h -> nth_error (h_norms h) ring = Some norm ->
  exists rot irot, dot3 norm norm = 1 /\ nth_error (h_rots h) ring = Some rot /\ euler_between norm zaxis zero9 = Some rot /\
    nth_error (h_irots h) ring = Some irot /\ euler_between zaxis norm zero9 = Some irot.
Proof.
  intros (G & Gi) En. destruct (gh_ring h G ring norm En) as (Hu & (rot & Er & Hm)). destruct (Gi ring norm En) as (irot & Ei & Hi).
  exists rot, irot. auto.
Qed.

Lemma unit_ray norm irot phi u : euler_between zaxis norm zero9 = Some irot -> rotate_vec (cos phi, sin phi, 0) irot = Some u -> dot3 u u = 1.
Proof.
  intros Hm Hu. rewrite (between_isometry _ _ _ _ _ _ _ Hm Hu Hu). unfold dot3. pose proof (sin2_cos2 phi) as H. unfold Rsqr in H. lra.
Qed.

Lemma bin_range h j : 0 < h_rMin h < h_rMax h -> (0 < h_bins h)%nat -> (j < h_bins h)%nat ->
  let dr := (ln (h_rMax h) - ln (h_rMin h)) / INR (h_bins h) in
  0 < dr /\ ln (h_rMin h) <= ln (h_rMin h) + INR j * dr /\ ln (h_rMin h) + INR (S j) * dr <= ln (h_rMax h).
Proof.
  intros Hr Hb Hj dr. assert (HL : ln (h_rMin h) < ln (h_rMax h)) by (apply ln_increasing; lra).
  assert (HI : 0 < INR (h_bins h)) by (apply lt_0_INR; lia). assert (Hd : 0 < dr) by (apply Rdiv_lt_0_compat; lra).
  assert (E : INR (h_bins h) * dr = ln (h_rMax h) - ln (h_rMin h)) by (unfold dr; field; lra).
  pose proof (pos_INR j). assert (INR (S j) <= INR (h_bins h)) by (apply le_INR; lia). split; [exact Hd|]. split; nra.
Qed.

Lemma added_total h ring norm rot irot i u e1 e2 rad j : good_core h -> (2 <= h_n h)%nat -> (i < h_n h)%nat -> 0 < rad ->
  0 < h_rMin h < h_rMax h -> (0 < h_bins h)%nat -> (j < h_bins h)%nat ->
  nth_error (h_norms h) ring = Some norm -> dot3 norm norm = 1 -> nth_error (h_rots h) ring = Some rot ->
  euler_between norm zaxis zero9 = Some rot -> euler_between zaxis norm zero9 = Some irot ->
  rotate_vec (cos (ring_phi (h_n h) i), sin (ring_phi (h_n h) i), 0) irot = Some u ->
  rotate_vec (1, 0, 0) irot = Some e1 -> rotate_vec (0, 1, 0) irot = Some e2 ->
  forall ps, (forall c rho, In (c, rho) ps -> ball_ok (h_n h) (h_origin h) u e1 e2 norm c rad) ->
  let dr := (ln (h_rMax h) - ln (h_rMin h)) / INR (h_bins h) in
  ray_total (h_origin h) u rad (ln (h_rMin h) + INR j * dr) (ln (h_rMin h) + INR (S j) * dr) ps
    (added h (to_spheres rad (filter (fun p => halo_intersect1 h rad (fst p)) ps)) ring i j).
Proof.
  intros G Hn Hi Hrad Hr Hb Hj En Hun Er Hm Hm' Hu H1 H2 ps Hok dr.
  destruct (bin_range h j Hr Hb Hj) as (Hd & Hlo & Hhi). fold dr in Hd, Hlo, Hhi.
  assert (Hw : (ln (h_rMin h) + INR (S j) * dr) - (ln (h_rMin h) + INR j * dr) = dr) by (rewrite S_INR; ring).
  assert (Hadd : forall ss, added h ss ring i j = density (ln (h_rMin h)) dr i j (flat_map (fun s => ring_ops h s norm rot) ss)).
  { intros ss. unfold added, ring_rots. rewrite En, Er. reflexivity. }
  induction ps as [|(c, rho) ps IH].
  - cbn [filter to_spheres map]. rewrite Hadd. cbn [flat_map density]. constructor.
  - assert (IH' := IH (fun c' rho' Hin => Hok c' rho' (or_intror Hin))). clear IH.
    destruct (Hok c rho (or_introl eq_refl)) as (Hne & Hcase).
    destruct (ring_share h c rad rho ring norm rot irot u e1 e2 (ln (h_rMin h)) dr i j G Hn Hi Hrad En Hun Hm Hm' Hu H1 H2 Hcase) as (s & e & Ho & Hc & Hs).
    assert (Hshare : ray_share (h_origin h) u c rad (ln (h_rMin h) + INR j * dr) (ln (h_rMin h) + INR (S j) * dr)
       (covered s e (ln (h_rMin h) + INR j * dr) (ln (h_rMin h) + INR (S j) * dr) / dr)).
    { exists s, e. split; [exact Ho|]. split; [exact Hc|]. rewrite Hw. reflexivity. }
    assert (Hcons := rt_cons _ _ _ _ _ c rho ps _ _ Hshare IH').
    cbn [filter fst]. destruct (halo_intersect1 h rad c) eqn:Ei.
    + unfold to_spheres. cbn [map fst snd]. rewrite Hadd. cbn [flat_map]. rewrite density_app, Hs.
      rewrite Hadd in Hcons. exact Hcons.
    + assert (Hu1 := unit_ray _ _ _ _ Hm' Hu).
      rewrite (pruned (h_origin h) u c rad (h_rMin h) (h_rMax h) _ _ s e h) in Hcons; auto; [|rewrite S_INR; lra].
      unfold Rdiv in Hcons. rewrite Rmult_0_l, Rmult_0_r, Rplus_0_l in Hcons. exact Hcons.
Qed.

(** The particles of a file that are used: centre and density. *)
Definition particles (c : LoadConf) (rad : R) (f : PFile) (xs' : list vec3) : list (vec3 * R) :=
  map (fun k => (nth k xs' (0, 0, 0), nth k (f_ms f) 0 * INR (c_sf3 c) / (4 * PI / 3 * rad * rad * rad) / f_rhoM f))
    (filter (fun k => (k mod c_sf3 c =? 0)%nat) (seq 0 (length xs'))).

Lemma loaded_spheres c h f xs' : loaded c h f xs' =
  to_spheres (h_rMax h * c_rKernelMult c / c_rMaxMult c)
    (filter (fun p => halo_intersect1 h (h_rMax h * c_rKernelMult c / c_rMaxMult c) (fst p)) (particles c (h_rMax h * c_rKernelMult c / c_rMaxMult c) f xs')).
Proof.
  unfold loaded, picks, particles, kept, to_spheres. set (rad := h_rMax h * c_rKernelMult c / c_rMaxMult c).
  assert (Hin : forall k, In k (filter (fun k => (k mod c_sf3 c =? 0)%nat) (seq 0 (length xs'))) -> (k < length xs')%nat).
  { intros k Hk. apply filter_In in Hk. destruct Hk as (Hk & _). apply in_seq in Hk. lia. }
  induction (filter (fun k => (k mod c_sf3 c =? 0)%nat) (seq 0 (length xs'))) as [|k l IH]; [reflexivity|].
  assert (IH' := IH (fun k' Hk => Hin k' (or_intror Hk))). clear IH.
  cbn [map filter fst]. rewrite (nth_indep _ false (halo_intersect1 h rad (0, 0, 0))) by (rewrite map_length; apply Hin; left; reflexivity).
  rewrite map_nth. destruct (halo_intersect1 h rad (nth k xs' (0, 0, 0))); cbn [map]; [f_equal|]; exact IH'.
Qed.

Definition zero_halo : Halo := mkHalo (0, 0, 0) 0 0 0 0 0 [] 0 [] [] [] [] 0.

Lemma init_conform norms x rMin rMax bins n rho0 h : (0 < bins)%nat -> (0 < n)%nat -> 0 < rMin < rMax -> Forall (fun v : vec3 => dot3 v v = 1) norms ->
  halo_init norms x rMin rMax bins n rho0 = Some h ->
  conform (length norms) bins n (ln rMax - ln rMin) h /\ good_halo h /\ h_norms h = norms /\ h_origin h = x /\ h_rMin h = rMin /\ h_rMax h = rMax /\
    h_defaultRho h = rho0 /\ forall ring p, nth_error (h_profs h) ring = Some p -> forall off m, rowsum (p_derivs p) off m = 0.
Proof.
  intros Hb Hn Hr Hu E. destruct (halo_init_good norms x rMin rMax bins n rho0 Hb Hn Hr Hu) as (h' & E' & G & E1 & E2 & E3 & E4 & E5 & E6 & E7 & E8 & E9).
  assert (h' = h) by congruence. subst h'. split; [constructor; auto; [apply G|rewrite E6, E7; exact Hr|congruence]|]. repeat (split; [assumption|]).
  intros ring p Ep off m. rewrite E9, nth_error_map in Ep. destruct (nth_error norms ring); [|discriminate]. injection Ep as <-. apply ring_init_rows.
Qed.

Lemma zero_worker K B N L h : (0 < B)%nat -> conform K B N L h -> worker_halo h zero_halo.
Proof. intros HB C. right; left. rewrite (cf_bins _ _ _ _ _ C). cbn. lia. Qed.

Lemma filter_concat {A} (p : A -> bool) l : filter p (concat l) = concat (map (filter p) l).
Proof. induction l; cbn; [reflexivity|]. now rewrite filter_app, IHl. Qed.

Lemma loaded_concat c h (fxs : list (PFile * list vec3)) :
  concat (map (fun fx : PFile * list vec => loaded c h (fst fx) (snd fx)) fxs) =
  to_spheres (h_rMax h * c_rKernelMult c / c_rMaxMult c) (filter (fun p => halo_intersect1 h (h_rMax h * c_rKernelMult c / c_rMaxMult c) (fst p))
    (concat (map (fun fx : PFile * list vec => particles c (h_rMax h * c_rKernelMult c / c_rMaxMult c) (fst fx) (snd fx)) fxs))).
Proof.
  induction fxs as [|(f, xs) fxs IH]; [reflexivity|]. cbn [map concat fst snd]. rewrite IH, loaded_spheres, filter_app.
  unfold to_spheres. rewrite map_app. reflexivity.
Qed.
