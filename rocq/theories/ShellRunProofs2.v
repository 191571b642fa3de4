(** * Loading particles for many halos gives each the densities it would have alone. *)
From Coq Require Import Reals Lra Lia ZArith List Bool.
From Verif Require Import ShellRunModel SmoothSpec LoopFacts MatModel InterpProofs SplashProofs RingProofs LosSpec LosProofs LosProofs2 LosProofs3 LosProofs4 LosProofs5 LosProofs6 LosProofs7 LosProofs8 LosProofs9 LosProofs10 LosProofs11 ShellRunProofs.
Import List ListNotations.
Local Open Scope R_scope.

Lemma nearest_unique L x d d' : 0 < L -> nearest_image L x d -> nearest_image L x d' -> d = d' \/ (d * d = L / 2 * (L / 2) /\ d' * d' = L / 2 * (L / 2)).
Proof.
  intros HL (B1 & k1 & E1) (B2 & k2 & E2).
  assert (E : d - d' = IZR (k1 - k2) * L) by (rewrite minus_IZR; lra).
  destruct (Z.lt_trichotomy (k1 - k2) 0) as [H|[H|H]].
  - right. assert (IZR (k1 - k2) <= -1) by (apply IZR_le; lia). assert (d = - (L / 2) /\ d' = L / 2) as (-> & ->) by (split; nra). split; ring.
  - left. rewrite H in E. lra.
  - right. assert (1 <= IZR (k1 - k2)) by (apply IZR_le; lia). assert (d = L / 2 /\ d' = - (L / 2)) as (-> & ->) by (split; nra). split; ring.
Qed.

(** Two images nearest to the halo are the same, or both are too far away to be picked. *)
Lemma near_unique h tw rad x y y' : 0 < tw -> 0 <= h_rMax h + rad <= tw / 2 -> near tw (h_origin h) x y -> near tw (h_origin h) x y' ->
  y = y' \/ (halo_intersect1 h rad y = false /\ halo_intersect1 h rad y' = false).
Proof.
  intros Ht Hr. unfold near, halo_intersect1. destruct (h_origin h) as ((a0, b0), c0). destruct x as ((a, b), c). destruct y as ((a1, b1), c1). destruct y' as ((a2, b2), c2).
  intros (A1 & B1 & C1) (A2 & B2 & C2).
  assert (Hfar : forall d1 d2 d3 lo, (d1 * d1 = tw / 2 * (tw / 2) \/ d2 * d2 = tw / 2 * (tw / 2) \/ d3 * d3 = tw / 2 * (tw / 2)) ->
     Rltb lo (d1 * d1 + d2 * d2 + d3 * d3) && Rltb (d1 * d1 + d2 * d2 + d3 * d3) ((h_rMax h + rad) * (h_rMax h + rad)) = false).
  { intros d1 d2 d3 lo Hd. apply andb_false_iff. right. apply Rltb_false. assert ((h_rMax h + rad) * (h_rMax h + rad) <= tw / 2 * (tw / 2)) by nra.
    pose proof (Rle_0_sqr d1). pose proof (Rle_0_sqr d2). pose proof (Rle_0_sqr d3). unfold Rsqr in *. lra. }
  destruct (nearest_unique _ _ _ _ Ht A1 A2) as [EA|[EA1 EA2]]; [|right; split; apply Hfar; auto].
  destruct (nearest_unique _ _ _ _ Ht B1 B2) as [EB|[EB1 EB2]]; [|right; split; apply Hfar; auto].
  destruct (nearest_unique _ _ _ _ Ht C1 C2) as [EC|[EC1 EC2]]; [|right; split; apply Hfar; auto].
  left. f_equal; [f_equal|]; lra.
Qed.

Lemma loaded_unique c h f xs1 xs2 : 0 < f_tw f -> 0 <= h_rMax h + h_rMax h * c_rKernelMult c / c_rMaxMult c <= f_tw f / 2 ->
  Forall2 (near (f_tw f) (h_origin h)) (f_xs f) xs1 -> Forall2 (near (f_tw f) (h_origin h)) (f_xs f) xs2 -> loaded c h f xs1 = loaded c h f xs2.
Proof.
  intros Ht Hr F1 F2. unfold loaded. cbv zeta. set (rad := h_rMax h * c_rKernelMult c / c_rMaxMult c) in *.
  pose proof (Forall2_length _ _ _ F1) as L1. pose proof (Forall2_length _ _ _ F2) as L2. replace (length xs2) with (length xs1) by lia.
  assert (Hk : forall k, (k < length xs1)%nat -> nth k xs1 (0, 0, 0) = nth k xs2 (0, 0, 0) \/
    (halo_intersect1 h rad (nth k xs1 (0, 0, 0)) = false /\ halo_intersect1 h rad (nth k xs2 (0, 0, 0)) = false)).
  { intros k Hk. assert (Hn : forall (xs l : list vec) j, Forall2 (near (f_tw f) (h_origin h)) xs l -> (j < length l)%nat -> near (f_tw f) (h_origin h) (nth j xs (0, 0, 0)) (nth j l (0, 0, 0))).
    { clear. intros xs l j F. revert j. induction F as [|a b l1 l2 H F IH]; intros [|j] Hj; cbn [length] in Hj; try lia; cbn [nth]; [exact H|apply IH; lia]. }
    apply (near_unique h (f_tw f) rad (nth k (f_xs f) (0, 0, 0))); auto. apply Hn; [exact F2|lia]. }
  unfold picks. assert (Hin : forall k, In k (kept (c_sf3 c) (length xs1)) -> (k < length xs1)%nat).
  { intros k Hi. unfold kept in Hi. apply filter_In in Hi. destruct Hi as (Hi & _). apply in_seq in Hi. lia. }
  revert Hin. generalize (kept (c_sf3 c) (length xs1)) as ks. induction ks as [|k ks IH]; intros Hin; [reflexivity|]. cbn [filter].
  assert (Hkl := Hin k (or_introl eq_refl)). specialize (IH (fun k' Hk' => Hin k' (or_intror Hk'))).
  rewrite !(nth_indep _ false (halo_intersect1 h rad (0, 0, 0))) by (rewrite map_length; lia). rewrite !(map_nth (halo_intersect1 h rad)).
  destruct (Hk k Hkl) as [E|(E1 & E2)].
  - rewrite <- E. destruct (halo_intersect1 h rad (nth k xs1 (0, 0, 0))); [|exact IH]. cbn [map]. f_equal; [|exact IH]. unfold pick. now rewrite E.
  - rewrite E1, E2. exact IH.
Qed.

Lemma loaded_all_unique c h files xss1 xss2 : Forall (fun f => 0 < f_tw f /\ 0 <= h_rMax h + h_rMax h * c_rKernelMult c / c_rMaxMult c <= f_tw f / 2) files ->
  Forall2 (fun f xs1 => Forall2 (near (f_tw f) (h_origin h)) (f_xs f) xs1) files xss1 -> Forall2 (fun f xs1 => Forall2 (near (f_tw f) (h_origin h)) (f_xs f) xs1) files xss2 ->
  map (fun fx : PFile * list vec => loaded c h (fst fx) (snd fx)) (combine files xss1) = map (fun fx : PFile * list vec => loaded c h (fst fx) (snd fx)) (combine files xss2).
Proof.
  intros HF F1. revert xss2. induction F1 as [|f xs1 files xss1 N1 F1 IH]; intros xss2 F2; inversion F2 as [|? xs2 ? xss2' N2 F2']; subst; [reflexivity|].
  inversion HF as [|? ? (Ht & Hr) HF']; subst. cbn [combine map fst snd]. f_equal; [apply loaded_unique; assumption|]. apply IH; assumption.
Qed.

(** Two halos that received the same spheres are twins. *)
Lemma adds_twins K n bins L h h1 h2 f : conform K bins n L h -> good_halo h -> adds h h1 f -> adds h h2 f -> twins K n bins h1 h2.
Proof.
  intros C (G & Gi) A1 A2. pose proof A1 as (p1 & E1 & _). pose proof A2 as (p2 & E2 & _).
  split; [subst; repeat split|]. split; [subst; apply C|]. split; [subst; apply C|]. split.
  - intros ring px py Hr. destruct (nth_error (h_norms h) ring) as [norm|] eqn:En.
    2: { apply nth_error_None in En. rewrite (gh_norms _ G), (cf_rings _ _ _ _ _ C) in En. lia. }
    destruct (Gi ring norm En) as (irot & Ei & Eu). subst h1. unfold plane_to_volume, rd. cbn [with_profs h_irots]. rewrite Ei.
    unfold euler_between in Eu. destruct (spherical_angles zaxis), (spherical_angles norm). apply (euler_total _ _ _ _ _ Eu).
  - intros ring i Hr Hi. destruct (nth_error (h_profs h) ring) as [p|] eqn:Ep.
    2: { apply nth_error_None in Ep. rewrite (gh_profs _ G), (cf_rings _ _ _ _ _ C) in Ep. lia. }
    assert (Hi0 : (i < h_n h)%nat) by (rewrite (cf_n _ _ _ _ _ C); exact Hi). pose proof (cf_bins _ _ _ _ _ C) as Eb.
    pose proof (get_rhos_adds h h1 f ring p i G A1 Ep Hi0) as Q1. pose proof (get_rhos_adds h h2 f ring p i G A2 Ep Hi0) as Q2. rewrite Eb in Q1, Q2.
    destruct (Q1 (zeros bins)) as (o & Eo & Lo & Ho); [unfold zeros; apply repeat_length|].
    exists o. split; [exact Lo|]. intros buf Lb. destruct (Q1 buf Lb) as (o1 & -> & L1 & H1). destruct (Q2 buf Lb) as (o2 & -> & L2 & H2).
    split; f_equal; apply (nth_ext _ _ 0 0); try congruence; intros j Hj; [rewrite H1, Ho by lia|rewrite H2, Ho by lia]; reflexivity.
Qed.

Lemma adds_same h h1 f g : (forall ring i j, f ring i j = g ring i j) -> adds h h1 f -> adds h h1 g.
Proof.
  intros E (p & Hh & L & H). exists p. split; [exact Hh|]. split; [exact L|]. intros ring q Eq. destruct (H ring q Eq) as (p' & A & B & C & D). exists p'. repeat (split; [assumption|]).
  intros i j Hj. rewrite D by exact Hj. now rewrite E.
Qed.

(** A halo loaded together with others, with any number of workers, is a twin of the halo loaded alone by one. *)
Theorem sphere_loop_twins c K B N L files halos0 ws : (0 < c_sf3 c)%nat -> (0 < B)%nat ->
  Forall (fun f => file_ok f /\ Forall (fun h => in_box (f_tw f) (h_origin h) /\ 0 <= h_rMax h + h_rMax h * c_rKernelMult c / c_rMaxMult c <= f_tw f / 2) halos0) files ->
  Forall (fun h => conform K B N L h /\ good_halo h) halos0 -> Forall (fun w => forall h, conform K B N L h -> worker_halo h w) ws ->
  exists halos' ws', sphere_loop c (length ws + 1) files halos0 ws = Some (halos', ws') /\ length halos' = length halos0 /\
    length ws' = length ws /\ Forall (fun w => forall h, conform K B N L h -> worker_halo h w) ws' /\
    forall a h, nth_error halos0 a = Some h -> exists h1 h2, nth_error halos' a = Some h1 /\ sphere_loop c 1 files [h] [] = Some ([h2], []) /\ twins K N B h1 h2 /\
      h_rMin h1 = h_rMin h /\ h_rMax h1 = h_rMax h.
Proof.
  intros Hsf HB HF HC HW.
  destruct (sphere_loop_spec c K B N L files halos0 ws Hsf HB) as (halos' & ws' & E & L' & Lw & HW' & H).
  { eapply Forall_impl; [|exact HF]. intros f (F1 & F2). split; [exact F1|]. eapply Forall_impl; [|exact F2]. intros h (A & _). exact A. }
  { eapply Forall_impl; [|exact HC]. intros h (A & _). exact A. }
  { exact HW. }
  exists halos', ws'. split; [exact E|]. split; [exact L'|]. split; [exact Lw|]. split; [exact HW'|]. intros a h Ea.
  destruct (H a h Ea) as (h1 & xss1 & E1 & C1 & F1 & A1).
  assert (Hin : In h halos0) by (eapply nth_error_In; exact Ea). rewrite Forall_forall in HC. destruct (HC h Hin) as (Ch & Gh).
  assert (HFh : Forall (fun f => file_ok f /\ in_box (f_tw f) (h_origin h) /\ 0 <= h_rMax h + h_rMax h * c_rKernelMult c / c_rMaxMult c <= f_tw f / 2) files).
  { eapply Forall_impl; [|exact HF]. intros f (F & F2). split; [exact F|]. rewrite Forall_forall in F2. apply F2. exact Hin. }
  destruct (sphere_loop_spec c K B N L files [h] [] Hsf HB) as (hs2 & ws2 & E2 & L2 & Lw2 & _ & H2).
  { eapply Forall_impl; [|exact HFh]. intros f (F & F2 & _). split; [exact F|]. constructor; [exact F2|constructor]. }
  { constructor; [exact Ch|constructor]. } { constructor. }
  destruct (H2 0%nat h eq_refl) as (h2 & xss2 & E2' & C2 & F2 & A2).
  exists h1, h2. split; [exact E1|]. split.
  { cbn [length Nat.add] in E2. rewrite E2. destruct hs2 as [|g [|]]; try discriminate. injection E2' as ->. destruct ws2; [reflexivity|discriminate]. }
  assert (Hl := loaded_all_unique c h (filter (meets h) files) xss1 xss2).
  rewrite Hl in A1; [| |exact F1|exact F2].
  2: { apply Forall_forall. intros f Hf. apply filter_In in Hf. destruct Hf as (Hf & _). rewrite Forall_forall in HFh. destruct (HFh f Hf) as ((T & _) & _ & R). auto. }
  split; [apply (adds_twins K N B L h h1 h2 _ Ch Gh A1 A2)|]. destruct A1 as (p & -> & _). split; reflexivity.
Qed.
