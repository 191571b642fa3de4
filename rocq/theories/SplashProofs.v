(** * Smooth, SplashbackRadius and the ring buffer. *)
From Coq Require Import Reals Lra Lia ZArith List Bool.
From Verif Require Import SmoothModel SmoothSpec LoopFacts MatModel MatSpec MatProofs MatProofs2 InterpProofs SmoothProofs DerivProofs SavgolProofs SavgolProofs3.
Import List ListNotations.
Local Open Scope R_scope.

(** ** SplashbackRadius *)
Lemma splashback_ok rs rhos derivs dLim : length rhos = length rs -> length derivs = length rs ->
  exists r ok, splashback_radius rs rhos derivs dLim = Some (r, ok) /\
    (ok = false -> r = 0 /\ forall j, ~ candidate (length rs) rhos derivs dLim j) /\
    (ok = true -> exists a, candidate (length rs) rhos derivs dLim a /\ r = nth a rs 0 /\
       forall j, candidate (length rs) rhos derivs dLim j -> nth a derivs 0 <= nth j derivs 0 /\ ((j < a)%nat -> nth a derivs 0 < nth j derivs 0)).
Proof.
  intros L1 L2. unfold splashback_radius. rewrite L1, L2, Nat.eqb_refl. cbn [negb].
  destruct rhos as [|rho0 rhos'].
  { exists 0, false. split; [reflexivity|]. split; [|discriminate]. intros _. split; [reflexivity|]. intros j (H1 & H2 & _). cbn [length] in L1. lia. }
  set (rhos := rho0 :: rhos') in *. set (n := length rs) in *.
  set (cand := candidate n rhos derivs dLim).
  match goal with |- context [loop_from 1 (n - 1) ?B ?S] => destruct (loop_from_inv (fun i (st : R * R * option nat) =>
    let '(rhoMin, dMin, iMin) := st in
    (forall x, x < rhoMin <-> forall j, (j < i)%nat -> x < nth j rhos 0) /\
    match iMin with
    | None => dMin = dLim /\ forall j, (j < i)%nat -> ~ cand j
    | Some a => (a < i)%nat /\ cand a /\ dMin = nth a derivs 0 /\ forall j, (j < i)%nat -> cand j -> dMin <= nth j derivs 0 /\ ((j < a)%nat -> dMin < nth j derivs 0)
    end) 1 (Nat.max 1 (n - 1)) B S) as (((rhoMin & dMin) & iMin) & E & Hr & HI) end.
  - lia.
  - split.
    + intros x. split; [intros H j Hj; assert (j = 0%nat) by lia; subst; exact H|intros H; exact (H O ltac:(lia))].
    + split; [reflexivity|]. intros j Hj (H1 & _). lia.
  - intros i ((rhoMin & dMin) & iMin) Hi (Hr & HI).
    assert (Hin : (1 <= i /\ i + 1 < n)%nat) by lia. rewrite (rd_nth rhos i 0) by lia.
    assert (Hcand : cand i <-> nth i rhos 0 < rhoMin /\ nth i derivs 0 < nth (i + 1) derivs 0 /\ nth i derivs 0 < nth (i - 1) derivs 0 /\ nth i derivs 0 < dLim).
    { unfold cand, candidate. rewrite (Hr (nth i rhos 0)). tauto. }
    assert (Hmin' : forall rm, rm = (if Rltb (nth i rhos 0) rhoMin then nth i rhos 0 else rhoMin) -> forall x, x < rm <-> forall j, (j < S i)%nat -> x < nth j rhos 0).
    { intros rm -> x. destruct (Rltb (nth i rhos 0) rhoMin) eqn:El.
      - apply Rltb_true in El. split.
        + intros Hx j Hj. destruct (Nat.eq_dec j i) as [->|]; [exact Hx|]. apply (proj1 (Hr x)); [lra|lia].
        + intros H. apply H. lia.
      - apply Rltb_false in El. split.
        + intros Hx j Hj. destruct (Nat.eq_dec j i) as [->|]; [lra|]. apply (proj1 (Hr x)); [lra|lia].
        + intros H. apply Hr. intros j Hj. apply H. lia. }
    assert (Hkeep : ~ cand i -> match iMin with
       | None => dMin = dLim /\ forall j, (j < S i)%nat -> ~ cand j
       | Some a => (a < S i)%nat /\ cand a /\ dMin = nth a derivs 0 /\ forall j, (j < S i)%nat -> cand j -> dMin <= nth j derivs 0 /\ ((j < a)%nat -> dMin < nth j derivs 0) end).
    { intros Hn. destruct iMin as [a|].
      - destruct HI as (Ha & Hca & Hd & Hall). split; [lia|]. split; [exact Hca|]. split; [exact Hd|]. intros j Hj Hcj.
        destruct (Nat.eq_dec j i) as [->|]; [contradiction|]. apply Hall; [lia|exact Hcj].
      - destruct HI as (Hd & Hall). split; [exact Hd|]. intros j Hj. destruct (Nat.eq_dec j i) as [->|]; [exact Hn|]. apply Hall. lia. }
    destruct (Rltb (nth i rhos 0) rhoMin) eqn:El.
    2: { eexists. split; [reflexivity|]. split; [apply Hmin'; reflexivity|]. apply Hkeep. rewrite Hcand. apply Rltb_false in El. lra. }
    unfold is_minimum. rewrite (rd_nth derivs i 0), (rd_nth derivs (i + 1) 0) by lia.
    destruct (Rltb (nth i derivs 0) (nth (i + 1) derivs 0)) eqn:E1.
    2: { eexists. split; [reflexivity|]. split; [apply Hmin'; reflexivity|]. apply Hkeep. rewrite Hcand. apply Rltb_false in E1. lra. }
    rewrite (rd_nth derivs (i - 1) 0) by lia.
    destruct (Rltb (nth i derivs 0) (nth (i - 1) derivs 0)) eqn:E2.
    2: { eexists. split; [reflexivity|]. split; [apply Hmin'; reflexivity|]. apply Hkeep. rewrite Hcand. apply Rltb_false in E2. lra. }
    apply Rltb_true in El, E1, E2.
    destruct (Rltb (nth i derivs 0) dMin) eqn:E3.
    + eexists. split; [reflexivity|]. split; [apply Hmin'; reflexivity|]. apply Rltb_true in E3.
      assert (Hd : nth i derivs 0 < dLim).
      { destruct iMin as [a|]; [destruct HI as (_ & (_ & _ & _ & _ & _ & Ha) & Hd & _); lra|destruct HI as (Hd & _); lra]. }
      assert (Hci : cand i) by (apply Hcand; tauto). split; [lia|]. split; [exact Hci|]. split; [reflexivity|].
      intros j Hj Hcj. destruct (Nat.eq_dec j i) as [->|]; [split; [lra|lia]|].
      destruct iMin as [a|]; [destruct HI as (_ & _ & _ & Hall); destruct (Hall j ltac:(lia) Hcj); split; intros; lra|destruct HI as (_ & Hall); elim (Hall j ltac:(lia) Hcj)].
    + eexists. split; [reflexivity|]. split; [apply Hmin'; reflexivity|]. apply Rltb_false in E3.
      destruct iMin as [a|].
      * destruct HI as (Ha & Hca & Hd & Hall). split; [lia|]. split; [exact Hca|]. split; [exact Hd|]. intros j Hj Hcj.
        destruct (Nat.eq_dec j i) as [->|]; [split; [lra|lia]|]. apply Hall; [lia|exact Hcj].
      * destruct HI as (Hd & Hall). apply Hkeep. rewrite Hcand. lra.
  - assert (En : loop_from 1 (n - 1) = loop_from (S:=R * R * option nat) 1 (Nat.max 1 (n - 1))).
    { unfold loop_from. replace (n - 1 - 1)%nat with (Nat.max 1 (n - 1) - 1)%nat by lia. reflexivity. }
    rewrite En, E. cbn [snd].
    assert (Hlast : forall j, cand j -> (j < Nat.max 1 (n - 1))%nat) by (intros j (_ & H & _); lia).
    destruct iMin as [a|].
    + destruct HI as (Ha & Hca & Hd & Hall). assert (Han : (a < n)%nat) by (destruct Hca as (_ & H & _); lia).
      rewrite (rd_nth rs a 0) by exact Han. exists (nth a rs 0), true. split; [reflexivity|]. split; [discriminate|]. intros _. exists a. split; [exact Hca|].
      split; [reflexivity|]. intros j Hj. subst dMin. apply Hall; [apply Hlast; exact Hj|exact Hj].
    + destruct HI as (Hd & Hall). exists 0, false. split; [reflexivity|]. split; [|discriminate]. intros _. split; [reflexivity|]. intros j Hj. apply (Hall j); [apply Hlast|]; exact Hj.
Qed.

(** ** Kernels kept between calls *)
Definition consistent (c : kcache) (window : nat) (dx : R) : Prop :=
  forall k kd, cached c window = Some (k, kd) -> savgol_kernel 4 window = Some k /\ savgol_deriv_kernel dx 1 4 window = Some kd.

Lemma get_kernels_ok c window dx : consistent c window dx -> (window mod 2 = 1)%nat -> (4 < window)%nat ->
  exists c' k kd, get_kernels c window dx = Some (c', k, kd) /\ savgol_kernel 4 window = Some k /\ savgol_deriv_kernel dx 1 4 window = Some kd /\ consistent c' window dx.
Proof.
  intros Hc Hodd Hw. unfold get_kernels. destruct (cached c window) as [[k kd]|] eqn:E.
  - exists c, k, kd. destruct (Hc k kd E) as (E1 & E2). auto.
  - assert (Hn : (4 <= 2 * (window / 2))%nat) by (pose proof (Nat.div_mod window 2); lia).
    destruct (savgol_good (window / 2) 4 0 Hn ltac:(lia) ltac:(lia)) as (cs & Ecs & _).
    destruct (savgol_good (window / 2) 4 1 Hn ltac:(lia) ltac:(lia)) as (cd & Ecd & _).
    assert (E1 : savgol_kernel 4 window = Some (mkKernel cs (window / 2))).
    { unfold savgol_kernel. rewrite Hodd. cbn [Nat.eqb negb]. destruct (Nat.leb_spec window 4); [lia|]. rewrite Ecs. reflexivity. }
    assert (E2 : exists kd, savgol_deriv_kernel dx 1 4 window = Some kd).
    { unfold savgol_deriv_kernel. rewrite Hodd. cbn [Nat.eqb negb Nat.ltb Nat.leb]. destruct (Nat.leb_spec window 4); [lia|]. rewrite Ecd. eexists. reflexivity. }
    destruct E2 as (kd & E2). rewrite E1, E2. eexists _, _, _. split; [reflexivity|]. split; [reflexivity|]. split; [reflexivity|].
    intros k' kd' H. cbn [cached] in H. rewrite Nat.eqb_refl in H. injection H as <- <-. auto.
Qed.

Lemma savgol_kernel_shape order window k : savgol_kernel order window = Some k -> length (k_cs k) = window /\ k_center k = (window / 2)%nat /\ (window mod 2 = 1)%nat /\ (order < window)%nat.
Proof.
  unfold savgol_kernel. destruct (Nat.eqb_spec (window mod 2) 1) as [Hodd|]; cbn [negb]; [|discriminate]. destruct (Nat.leb_spec window order); [discriminate|].
  assert (Hw : (window = 2 * (window / 2) + 1)%nat) by (pose proof (Nat.div_mod window 2); lia).
  destruct (savgol_good (window / 2) order 0) as (cs & -> & L & _); [lia|lia|lia|]. intros [= <-]. cbn [k_cs k_center]. split; [lia|]. auto.
Qed.

Lemma savgol_deriv_shape dx p window k : savgol_deriv_kernel dx 1 p window = Some k -> length (k_cs k) = window /\ k_center k = (window / 2)%nat /\ (window mod 2 = 1)%nat /\ (p < window)%nat.
Proof.
  unfold savgol_deriv_kernel. destruct (Nat.eqb_spec (window mod 2) 1) as [Hodd|]; cbn [negb]; [|discriminate]. destruct (Nat.ltb_spec p 1); [discriminate|]. destruct (Nat.leb_spec window p); [discriminate|].
  assert (Hw : (window = 2 * (window / 2) + 1)%nat) by (pose proof (Nat.div_mod window 2); lia).
  destruct (savgol_good (window / 2) p 1) as (cs & -> & L & _); [lia|lia|lia|]. intros [= <-]. cbn [k_cs k_center]. rewrite map_length. split; [lia|]. auto.
Qed.

(** Convolution does not depend on the old contents of the output. *)
Lemma convolve_out k xs b o1 o2 : (k_center k < length (k_cs k) <= length xs)%nat -> length o1 = length xs -> length o2 = length xs ->
  b <> Reflection -> convolve_at k xs b o1 = convolve_at k xs b o2.
Proof.
  intros Hk L1 L2 Hb. destruct (convolve_spec k xs b o1 Hk L1 ltac:(congruence)) as (r1 & -> & R1 & H1). destruct (convolve_spec k xs b o2 Hk L2 ltac:(congruence)) as (r2 & -> & R2 & H2).
  f_equal. apply (nth_ext _ _ 0 0); [congruence|]. intros i Hi. rewrite H1, H2 by lia. reflexivity.
Qed.

(** What Smooth computes, for any kernels consistent with the spacing of xs. *)
Definition smoothed (window : nat) (xs ys vals derivs : list R) : Prop :=
  exists k kd, savgol_kernel 4 window = Some k /\ savgol_deriv_kernel (ln (nth 1 xs 0) - ln (nth 0 xs 0)) 1 4 window = Some kd /\
    length vals = length ys /\ length derivs = length ys /\
    forall i, (i < length ys)%nat -> nth i vals 0 = exp (weighted k (continued Extension (map ln ys)) i) /\ nth i derivs 0 = weighted kd (continued Extension (map ln ys)) i.

Lemma smooth_ok c xs ys window vals derivs : consistent c window (ln (nth 1 xs 0) - ln (nth 0 xs 0)) -> (window mod 2 = 1)%nat -> (4 < window)%nat ->
  length xs = length ys -> (window < length xs)%nat -> length vals = length xs -> length derivs = length xs ->
  exists c' vals' derivs', smooth c xs ys window vals derivs = Some (c', map exp (map ln ys), vals', derivs', true) /\
    consistent c' window (ln (nth 1 xs 0) - ln (nth 0 xs 0)) /\ smoothed window xs ys vals' derivs'.
Proof.
  intros Hc Hodd Hw L Hl Lv Ld. unfold smooth. rewrite L, Nat.eqb_refl. cbn [negb]. destruct (Nat.leb_spec (length ys) window); [lia|].
  rewrite (rd_nth xs 1 0), (rd_nth xs 0 0) by lia. cbv zeta.
  destruct (get_kernels_ok c window _ Hc Hodd Hw) as (c' & k & kd & E & E1 & E2 & Hc'). rewrite E.
  destruct (savgol_kernel_shape _ _ _ E1) as (K1 & K2 & _). destruct (savgol_deriv_shape _ _ _ _ E2) as (D1 & D2 & _).
  assert (Hd : (window / 2 < window)%nat) by (apply Nat.div_lt; lia).
  destruct (convolve_spec k (map ln ys) Extension vals) as (v' & Ev & Lv' & Hv); [rewrite map_length; lia|rewrite map_length; lia|discriminate|].
  destruct (convolve_spec kd (map ln ys) Extension derivs) as (d' & Ed & Ld' & Hdd); [rewrite map_length; lia|rewrite map_length; lia|discriminate|].
  rewrite Ev, Ed. exists c', (map exp v'), d'. split; [reflexivity|]. split; [exact Hc'|].
  exists k, kd. split; [exact E1|]. split; [exact E2|]. rewrite map_length in *. split; [lia|]. split; [lia|]. intros i Hi.
  assert (Hcont : forall k0, k_center k0 = (window / 2)%nat -> length (k_cs k0) = window -> weighted k0 (coded Extension (map ln ys)) i = weighted k0 (continued Extension (map ln ys)) i).
  { intros k0 _ Hk0. apply weighted_ext. intros j Hj. apply coded_continued; [left; reflexivity| |].
    - intros E0. apply (f_equal (@length R)) in E0. rewrite map_length in E0. cbn in E0. lia.
    - rewrite map_length. lia. }
  split; [|rewrite Hdd by lia; apply Hcont; assumption].
  rewrite (nth_indep (map exp v') 0 (exp 0)) by (rewrite map_length; lia). rewrite map_nth, Hv by lia. f_equal. apply Hcont; assumption.
Qed.

Lemma exp_ln_map ys : Forall (fun y => 0 < y) ys -> map exp (map ln ys) = ys.
Proof. induction 1 as [|y ys Hy _ IH]; cbn [map]; [reflexivity|]. rewrite exp_ln by exact Hy. now rewrite IH. Qed.

Lemma ln_exp_map xs : map ln (map exp xs) = xs.
Proof. induction xs as [|x xs IH]; cbn [map]; [reflexivity|]. rewrite ln_exp. now rewrite IH. Qed.

(** Profiles that are power laws with a slope varying as a cubic. *)
Lemma smoothed_poly window p x0 dx N vals derivs : (window mod 2 = 1)%nat -> (4 < window < N)%nat -> dx <> 0 -> (length p <= 5)%nat ->
  smoothed window (map exp (grid_points x0 dx N)) (map exp (samples p x0 dx N)) vals derivs ->
  forall i, (window / 2 <= i)%nat -> (i + window / 2 < N)%nat ->
    nth i vals 0 = nth i (map exp (samples p x0 dx N)) 0 /\ nth i derivs 0 = peval (pderiv p) (x0 + INR i * dx).
Proof.
  intros Hodd Hw Hdx Hp (k & kd & E1 & E2 & Lv & Ld & H) i Hi1 Hi2. rewrite map_length, samples_length in *. rewrite ln_exp_map in H.
  destruct (H i ltac:(lia)) as (Hv & Hd). rewrite Hv, Hd. clear H Hv Hd.
  assert (Hww : (window = 2 * (window / 2) + 1)%nat) by (pose proof (Nat.div_mod window 2); lia).
  assert (Eg : forall j, (j < N)%nat -> ln (nth j (map exp (grid_points x0 dx N)) 0) = x0 + INR j * dx).
  { intros j Hj. rewrite (nth_indep _ 0 (exp 0)) by (rewrite map_length, grid_length; exact Hj). rewrite map_nth, ln_exp, grid_nth by exact Hj. reflexivity. }
  rewrite !Eg in E2 by lia. replace (x0 + INR 1 * dx - (x0 + INR 0 * dx)) with dx in E2 by (cbn [INR]; ring).
  unfold savgol_kernel in E1. unfold savgol_deriv_kernel in E2. rewrite Hodd in E1, E2. cbn [Nat.eqb negb Nat.ltb Nat.leb] in E1, E2.
  destruct (Nat.leb_spec window 4); [lia|].
  destruct (savgol_good (window / 2) 4 0) as (cs & Ecs & Lcs & Mcs); [lia|lia|lia|]. destruct (savgol_good (window / 2) 4 1) as (cd & Ecd & Lcd & Mcd); [lia|lia|lia|].
  rewrite Ecs in E1. rewrite Ecd in E2. injection E1 as <-. injection E2 as <-. split.
  - rewrite (weighted_poly (window / 2) 4 0) by (try assumption; try lia). rewrite pshift_0. cbn [pow]. rewrite Rmult_1_l.
    rewrite (nth_indep _ 0 (exp 0)) by (rewrite map_length, samples_length; lia). rewrite map_nth, samples_nth by lia. reflexivity.
  - set (f := INR (go_factorial 1) / dx ^ 1).
    assert (Hf : f = / dx) by (subst f; cbn [go_factorial Nat.mul Nat.add INR pow]; field; exact Hdx).
    transitivity (f * weighted (mkKernel cd (window / 2)) (continued Extension (samples p x0 dx N)) i).
    + unfold weighted. cbn [k_cs k_center]. rewrite map_length, <- sumf_scal. apply sumf_ext. intros j Hj.
      rewrite (nth_indep _ 0 (0 * f)) by (rewrite map_length; exact Hj). rewrite (map_nth (fun c => c * f)). change (fst (Nat.divmod window 1 0 1)) with (window / 2)%nat. ring.
    + rewrite (weighted_poly (window / 2) 4 1) by (try assumption; try lia). rewrite pshift_1, Hf. field. exact Hdx.
Qed.
