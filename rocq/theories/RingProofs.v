(** * The ring buffer: splashback radii of all lines of sight of a ring. *)
From Coq Require Import Reals Lra Lia ZArith List Bool.
From Verif Require Import SmoothModel SmoothSpec LoopFacts MatModel InterpProofs SmoothProofs SplashProofs.
Import List ListNotations.
Local Open Scope R_scope.

Definition sized (r : RingBuffer) (n bins : nat) : Prop :=
  rb_n r = n /\ rb_bins r = bins /\
  length (rb_planeXs r) = n /\ length (rb_planeYs r) = n /\ length (rb_xs r) = n /\ length (rb_ys r) = n /\ length (rb_zs r) = n /\
  length (rb_rs r) = n /\ length (rb_phis r) = n /\ length (rb_oks r) = n /\
  length (rb_profRs r) = bins /\ length (rb_profRhos r) = bins /\ length (rb_smoothRhos r) = bins /\ length (rb_smoothDerivs r) = bins.

Lemma rb_init_sized n bins : sized (rb_init n bins) n bins.
Proof. unfold sized, rb_init. cbn [rb_n rb_bins rb_planeXs rb_planeYs rb_xs rb_ys rb_zs rb_rs rb_phis rb_oks rb_profRs rb_profRhos rb_smoothRhos rb_smoothDerivs]. unfold zeros. rewrite !repeat_length. auto 20. Qed.

Lemma clear_ok {A} (z : A) n l : length l = n -> loop n (fun i l => wr l i z) l = Some (repeat z n).
Proof.
  intros L. destruct (loop_inv (fun i (l' : list A) => length l' = n /\ forall j, (j < i)%nat -> nth j l' z = z) n (fun i l => wr l i z) l) as (l' & -> & L' & H).
  - split; [exact L|intros; lia].
  - intros i t Hi (Lt & Ht). destruct (wr_some t i z z) as (t' & -> & Lt' & Ht'); [lia|]. exists t'. split; [reflexivity|]. split; [lia|].
    intros j Hj. rewrite Ht'. destruct (Nat.eqb_spec j i); [reflexivity|]. apply Ht. lia.
  - f_equal. apply (nth_ext _ _ z z); [rewrite repeat_length; exact L'|]. intros i Hi. rewrite H by lia. symmetry. apply nth_repeat.
Qed.

Lemma rb_clear_ok r n bins : sized r n bins -> rb_clear r = Some (rb_init n bins).
Proof.
  intros (<- & <- & H1 & H2 & H3 & H4 & H5 & H6 & H7 & H8 & H9 & H10 & H11 & H12). unfold rb_clear.
  rewrite !clear_ok by assumption. reflexivity.
Qed.

Lemma rotate_scale m rad a b d : rotate_vec (a, b, 0) m = Some d ->
  rotate_vec (a * rad, b * rad, 0) m = Some (rad * fst (fst d), rad * snd (fst d), rad * snd d).
Proof.
  unfold rotate_vec. destruct (rd (vals m) 0), (rd (vals m) 1), (rd (vals m) 2), (rd (vals m) 3), (rd (vals m) 4), (rd (vals m) 5), (rd (vals m) 6), (rd (vals m) 7), (rd (vals m) 8); try discriminate.
  intros [= <-]. cbn [fst snd]. f_equal. f_equal; [f_equal|]; ring.
Qed.

(** The radii of the bins. *)
Definition radii (h : Halo) : list R :=
  map (fun i => exp (ln (h_rMin h) + (ln (h_rMax h) - ln (h_rMin h)) / INR (h_bins h) * (INR i + / 2))) (seq 0 (h_bins h)).

Lemma radii_length h : length (radii h) = h_bins h.
Proof. unfold radii. now rewrite map_length, seq_length. Qed.

Lemma radii_nth h i : (i < h_bins h)%nat -> nth i (radii h) 0 = exp (ln (h_rMin h) + (ln (h_rMax h) - ln (h_rMin h)) / INR (h_bins h) * (INR i + / 2)).
Proof.
  intros Hi. rewrite (nth_indep _ 0 (exp (ln (h_rMin h) + (ln (h_rMax h) - ln (h_rMin h)) / INR (h_bins h) * (INR 0 + / 2)))) by (rewrite radii_length; exact Hi).
  unfold radii. rewrite (map_nth (fun i => exp (ln (h_rMin h) + (ln (h_rMax h) - ln (h_rMin h)) / INR (h_bins h) * (INR i + / 2)))). now rewrite seq_nth.
Qed.

Lemma get_rs_radii h buf : length buf = h_bins h -> get_rs h buf = Some (radii h).
Proof. intros L. unfold get_rs. rewrite L, Nat.eqb_refl. reflexivity. Qed.

(** Line of sight i of a ring, after Splashback. *)
Definition line_result (h : Halo) (ring window : nat) (dLim : R) (rhos : list R) (r0 r : RingBuffer) (i : nat) : Prop :=
  exists vals derivs, smoothed window (radii h) rhos vals derivs /\
    (nth i (rb_oks r) true = false -> nth i (rb_rs r) 0 = 0 /\ (forall j, ~ candidate (h_bins h) vals derivs dLim j) /\
       nth i (rb_phis r) 0 = nth i (rb_phis r0) 0 /\ nth i (rb_planeXs r) 0 = nth i (rb_planeXs r0) 0 /\ nth i (rb_planeYs r) 0 = nth i (rb_planeYs r0) 0 /\
       nth i (rb_xs r) 0 = nth i (rb_xs r0) 0 /\ nth i (rb_ys r) 0 = nth i (rb_ys r0) 0 /\ nth i (rb_zs r) 0 = nth i (rb_zs r0) 0) /\
    (nth i (rb_oks r) true = true -> exists a, candidate (h_bins h) vals derivs dLim a /\
       (forall j, candidate (h_bins h) vals derivs dLim j -> nth a derivs 0 <= nth j derivs 0 /\ ((j < a)%nat -> nth a derivs 0 < nth j derivs 0)) /\
       let rad := nth a (radii h) 0 in let phi := ring_phi (h_n h) i in
       nth i (rb_rs r) 0 = rad /\ nth i (rb_phis r) 0 = phi /\ nth i (rb_planeXs r) 0 = cos phi * rad /\ nth i (rb_planeYs r) 0 = sin phi * rad /\
       plane_to_volume h ring (cos phi * rad) (sin phi * rad) = Some (nth i (rb_xs r) 0, nth i (rb_ys r) 0, nth i (rb_zs r) 0)).

Lemma ring_phi_nonneg n i : 0 <= ring_phi n i.
Proof.
  unfold ring_phi. assert (0 < PI) by apply PI_RGT_0. pose proof (pos_INR i). assert (0 <= INR i / INR n).
  { unfold Rdiv. destruct (Nat.eq_dec n 0) as [->|]; [cbn [INR]; rewrite Rinv_0; lra|]. apply Rmult_le_pos; [lra|]. left. apply Rinv_0_lt_compat. apply lt_0_INR. lia. }
  apply Rmult_le_pos; lra.
Qed.

(** Same entries at position j. *)
Definition same_at (r r' : RingBuffer) (j : nat) : Prop :=
  nth j (rb_oks r) true = nth j (rb_oks r') true /\ nth j (rb_rs r) 0 = nth j (rb_rs r') 0 /\ nth j (rb_phis r) 0 = nth j (rb_phis r') 0 /\
  nth j (rb_planeXs r) 0 = nth j (rb_planeXs r') 0 /\ nth j (rb_planeYs r) 0 = nth j (rb_planeYs r') 0 /\
  nth j (rb_xs r) 0 = nth j (rb_xs r') 0 /\ nth j (rb_ys r) 0 = nth j (rb_ys r') 0 /\ nth j (rb_zs r) 0 = nth j (rb_zs r') 0.

Lemma same_at_refl r j : same_at r r j. Proof. unfold same_at. auto 10. Qed.
Lemma same_at_trans r1 r2 r3 j : same_at r1 r2 j -> same_at r2 r3 j -> same_at r1 r3 j.
Proof. unfold same_at. intuition congruence. Qed.

Lemma line_result_ext h ring window dLim rhos r0 r r' i : same_at r' r i -> line_result h ring window dLim rhos r0 r i -> line_result h ring window dLim rhos r0 r' i.
Proof.
  intros (E1 & E2 & E3 & E4 & E5 & E6 & E7 & E8) (vals & derivs & Hs & Hn & Hy). exists vals, derivs. split; [exact Hs|]. rewrite E1, E2, E3, E4, E5, E6, E7, E8. auto.
Qed.

Section Ring.
  Variables (h : Halo) (ring window n bins : nat) (dLim : R) (rhos : nat -> list R).
  Hypothesis Hn : h_n h = n.
  Hypothesis Hbins : h_bins h = bins.
  Hypothesis Hodd : (window mod 2 = 1)%nat.
  Hypothesis Hwin : (4 < window < bins)%nat.
  Hypothesis Hrhos : forall i buf, (i < n)%nat -> length buf = bins -> get_rhos h ring i buf = Some (rhos i) /\ length (rhos i) = bins.
  Hypothesis Hplane : forall px py, exists v, plane_to_volume h ring px py = Some v.
  Let dx := (ln (h_rMax h) - ln (h_rMin h)) / INR bins.

  Lemma radii_dx : ln (nth 1 (radii h) 0) - ln (nth 0 (radii h) 0) = dx.
  Proof. rewrite !radii_nth by lia. rewrite !ln_exp. unfold dx. rewrite Hbins. cbn [INR]. ring. Qed.

  Lemma rb_line_ok c r0 r i : consistent c window dx -> sized r n bins -> rb_profRs r = radii h -> (i < n)%nat -> same_at r r0 i ->
    exists c' r', rb_line h ring window dLim i (c, r) = Some (c', r') /\ consistent c' window dx /\ sized r' n bins /\ rb_profRs r' = radii h /\
      line_result h ring window dLim (rhos i) r0 r' i /\ forall j, j <> i -> same_at r' r j.
  Proof.
    intros Hc (Hsn & Hsb & H1 & H2 & H3 & H4 & H5 & H6 & H7 & H8 & H9 & H10 & H11 & H12) Hrs Hi (E1 & E2 & E3 & E4 & E5 & E6 & E7 & E8). unfold rb_line.
    destruct (Hrhos i (rb_profRhos r) Hi H10) as (-> & Lr). rewrite Hrs.
    rewrite <- radii_dx in Hc.
    destruct (smooth_ok c (radii h) (rhos i) window (rb_smoothRhos r) (rb_smoothDerivs r) Hc Hodd) as (c' & vals & derivs & -> & Hc' & Hs); [lia|rewrite radii_length; lia|rewrite radii_length; lia|rewrite radii_length; lia|rewrite radii_length; lia|].
    rewrite radii_dx in Hc'. cbn [negb rb_profRs rb_rs].
    assert (Hl : length vals = bins /\ length derivs = bins) by (destruct Hs as (k & kd & _ & _ & A & B & _); lia). destruct Hl as (Lv & Ld).
    destruct (wr_some (rb_oks r) i true true) as (oks & -> & Lo & Ho); [lia|].
    destruct (splashback_ok (radii h) vals derivs dLim) as (rad & ok & -> & Hno & Hyes); [rewrite radii_length; lia|rewrite radii_length; lia|].
    rewrite radii_length in Hno, Hyes.
    destruct (wr_some (rb_rs r) i rad 0) as (rs & -> & Lrs & Hrs'); [lia|]. destruct (wr_some oks i ok true) as (oks2 & -> & Lo2 & Ho2); [lia|].
    assert (Lm : length (map exp (map ln (rhos i))) = bins) by (rewrite !map_length; exact Lr).
    destruct ok; cbn [negb].
    2: { eexists _, _. split; [reflexivity|]. split; [exact Hc'|]. split; [|split; [reflexivity|split]].
      - unfold sized. cbn [rb_n rb_bins rb_planeXs rb_planeYs rb_xs rb_ys rb_zs rb_rs rb_phis rb_oks rb_profRs rb_profRhos rb_smoothRhos rb_smoothDerivs]. rewrite radii_length. repeat split; lia.
      - exists vals, derivs. split; [exact Hs|]. cbn [rb_planeXs rb_planeYs rb_xs rb_ys rb_zs rb_rs rb_phis rb_oks]. rewrite Ho2, Hrs', Nat.eqb_refl. destruct (Hno eq_refl) as (Hr0 & Hnc). split; [auto 10|discriminate].
      - intros j Hj. unfold same_at. cbn [rb_planeXs rb_planeYs rb_xs rb_ys rb_zs rb_rs rb_phis rb_oks]. rewrite Ho2, Ho, Hrs'. destruct (Nat.eqb_spec j i); [contradiction|]. auto 10. }
    unfold halo_phi. rewrite Hn. destruct (Nat.ltb_spec i n); [|lia].
    destruct (Rltb (ring_phi n i) 0) eqn:El. { apply Rltb_true in El. pose proof (ring_phi_nonneg n i). lra. }
    clear El. set (phi := ring_phi n i) in *. unfold line_segment. rewrite Hn. fold phi.
    destruct (Hplane (cos phi) (sin phi)) as (d & Hd). pose proof (Hplane (cos phi * rad) (sin phi * rad)) as (d2 & Hd2). unfold plane_to_volume in Hd, Hd2.
    destruct (rd (h_irots h) ring) as [irot|] eqn:Eirot; [|discriminate]. rewrite Hd. pose proof (rotate_scale irot rad _ _ _ Hd) as Hsc. destruct d as ((d0 & d1) & dz). cbn [fst snd] in Hsc. cbv beta iota zeta.
    destruct (wr_some (rb_phis r) i phi 0) as (phis & -> & Lp & Hp); [lia|].
    destruct (wr_some (rb_planeXs r) i (cos phi * rad) 0) as (pxs & -> & Lpx & Hpx); [lia|]. destruct (wr_some (rb_planeYs r) i (sin phi * rad) 0) as (pys & -> & Lpy & Hpy); [lia|].
    destruct (wr_some (rb_xs r) i (rad * d0) 0) as (xs & -> & Lx & Hx); [lia|]. destruct (wr_some (rb_ys r) i (rad * d1) 0) as (ys & -> & Ly & Hy); [lia|]. destruct (wr_some (rb_zs r) i (rad * dz) 0) as (zs & -> & Lz & Hz); [lia|].
    eexists _, _. split; [reflexivity|]. split; [exact Hc'|]. split; [|split; [reflexivity|split]].
    - unfold sized. cbn [rb_n rb_bins rb_planeXs rb_planeYs rb_xs rb_ys rb_zs rb_rs rb_phis rb_oks rb_profRs rb_profRhos rb_smoothRhos rb_smoothDerivs]. rewrite radii_length. repeat split; lia.
    - exists vals, derivs. split; [exact Hs|]. cbn [rb_planeXs rb_planeYs rb_xs rb_ys rb_zs rb_rs rb_phis rb_oks]. rewrite Ho2, Hrs', Hp, Hpx, Hpy, Hx, Hy, Hz, Nat.eqb_refl.
      split; [discriminate|]. intros _. destruct (Hyes eq_refl) as (a & Ha & Hrad & Hmin). exists a. split; [exact Ha|]. split; [exact Hmin|]. cbv zeta. rewrite <- Hrad, Hn. fold phi.
      repeat (split; [reflexivity|]). unfold plane_to_volume. rewrite Eirot. exact Hsc.
    - intros j Hj. unfold same_at. cbn [rb_planeXs rb_planeYs rb_xs rb_ys rb_zs rb_rs rb_phis rb_oks]. rewrite Ho2, Ho, Hrs', Hp, Hpx, Hpy, Hx, Hy, Hz. destruct (Nat.eqb_spec j i); [contradiction|]. auto 10.
  Qed.

  Lemma rb_splashback_ok c r : consistent c window dx -> sized r n bins ->
    exists c' r', rb_splashback c r h ring window dLim = Some (c', r') /\ consistent c' window dx /\ sized r' n bins /\
      forall i, (i < n)%nat -> line_result h ring window dLim (rhos i) r r' i.
  Proof.
    intros Hc Hs. unfold rb_splashback. assert (Hs0 := Hs). destruct Hs as (Hsn & Hsb & H1 & H2 & H3 & H4 & H5 & H6 & H7 & H8 & H9 & H10 & H11 & H12).
    rewrite get_rs_radii by lia. rewrite Hsn.
    match goal with |- context [loop n _ (c, ?R)] => set (r1 := R) end.
    destruct (loop_inv (fun i (st : kcache * RingBuffer) => consistent (fst st) window dx /\ sized (snd st) n bins /\ rb_profRs (snd st) = radii h /\
       (forall j, (j < i)%nat -> line_result h ring window dLim (rhos j) r (snd st) j) /\ forall j, (i <= j)%nat -> same_at (snd st) r j) n (rb_line h ring window dLim) (c, r1)) as ((c' & r') & E & Hc' & Hs' & _ & Hres & _).
    - cbn [fst snd]. split; [exact Hc|]. split; [|split; [reflexivity|split; [intros; lia|]]].
      + subst r1. unfold sized. cbn [rb_n rb_bins rb_planeXs rb_planeYs rb_xs rb_ys rb_zs rb_rs rb_phis rb_oks rb_profRs rb_profRhos rb_smoothRhos rb_smoothDerivs]. rewrite radii_length. repeat split; lia.
      + intros j _. exact (same_at_refl r j).
    - intros i (ci & ri) Hi (Hci & Hsi & Hpi & Hdone & Hrest). cbn [fst snd] in *.
      destruct (rb_line_ok ci r ri i Hci Hsi Hpi Hi (Hrest i ltac:(lia))) as (c2 & r2 & -> & Hc2 & Hs2 & Hp2 & Hl2 & Hsame). exists (c2, r2). split; [reflexivity|]. cbn [fst snd].
      split; [exact Hc2|]. split; [exact Hs2|]. split; [exact Hp2|]. split.
      + intros j Hj. destruct (Nat.eq_dec j i) as [->|]; [exact Hl2|]. apply (line_result_ext _ _ _ _ _ _ ri); [apply Hsame; assumption|]. apply Hdone. lia.
      + intros j Hj. apply (same_at_trans _ ri); [apply Hsame; lia|]. apply Hrest. lia.
    - rewrite E. exists c', r'. auto.
  Qed.
End Ring.

(** With no more bins than the window, nothing is found. *)
Lemma rb_splashback_narrow c r h ring window dLim n bins : sized r n bins -> h_n h = n -> h_bins h = bins -> (bins <= window)%nat ->
  (forall i buf, (i < n)%nat -> length buf = bins -> exists rhos, get_rhos h ring i buf = Some rhos /\ length rhos = bins) ->
  exists r', rb_splashback c r h ring window dLim = Some (c, r') /\ sized r' n bins /\ forall i, (i < n)%nat -> nth i (rb_oks r') true = false.
Proof.
  intros Hs Hn Hb Hw Hr. unfold rb_splashback. destruct Hs as (Hsn & Hsb & H1 & H2 & H3 & H4 & H5 & H6 & H7 & H8 & H9 & H10 & H11 & H12).
  rewrite get_rs_radii by lia. rewrite Hsn.
  match goal with |- context [loop n _ (c, ?R)] => set (r1 := R) end.
  destruct (loop_inv (fun i (st : kcache * RingBuffer) => fst st = c /\ sized (snd st) n bins /\ rb_profRs (snd st) = radii h /\ forall j, (j < i)%nat -> nth j (rb_oks (snd st)) true = false) n (rb_line h ring window dLim) (c, r1)) as ((c' & r') & E & Hc' & Hs' & _ & Hres).
  - cbn [fst snd]. split; [reflexivity|]. split; [|split; [reflexivity|intros; lia]].
    subst r1. unfold sized. cbn [rb_n rb_bins rb_planeXs rb_planeYs rb_xs rb_ys rb_zs rb_rs rb_phis rb_oks rb_profRs rb_profRhos rb_smoothRhos rb_smoothDerivs]. rewrite radii_length. repeat split; lia.
  - intros i (ci & ri) Hi (Hci & (Gsn & Gsb & G1 & G2 & G3 & G4 & G5 & G6 & G7 & G8 & G9 & G10 & G11 & G12) & Hpi & Hdone). cbn [fst snd] in *. subst ci.
    destruct (Hr i (rb_profRhos ri) Hi G10) as (rhos & Erh & Lrh). unfold rb_line. rewrite Erh, Hpi. unfold smooth. rewrite radii_length, Hb, Lrh, Nat.eqb_refl. cbn [negb].
    destruct (Nat.leb_spec bins window); [|lia]. destruct (wr_some (rb_oks ri) i false true) as (oks & -> & Lo & Ho); [lia|]. cbn [negb].
    eexists. split; [reflexivity|]. cbn [fst snd rb_oks rb_profRs]. split; [reflexivity|]. split; [|split; [reflexivity|]].
    + unfold sized. cbn [rb_n rb_bins rb_planeXs rb_planeYs rb_xs rb_ys rb_zs rb_rs rb_phis rb_oks rb_profRs rb_profRhos rb_smoothRhos rb_smoothDerivs]. rewrite radii_length. repeat split; lia.
    + intros j Hj. rewrite Ho. destruct (Nat.eqb_spec j i); [reflexivity|]. apply Hdone. lia.
  - rewrite E. cbn [fst snd] in *. subst c'. exists r'. auto.
Qed.
