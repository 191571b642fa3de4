(** * C184-C186: area, axes and radius histograms of shells. *)
From Verif Require Import StatsRunModel StatsSpec LoopFacts ShellProofs ShellProofs2 LosProofs9 InterpProofs StatsProofs2 StatsProofs3.
From Coq Require Import Reals Lra Lia ZArith List Permutation Bool.
Import List ListNotations.
Local Open Scope R_scope.

(** ** C184: SurfaceArea *)
Section Sphere.
Variables (c phi theta : R).
Hypothesis Hc : 0 < c.
Hypothesis Ht : 0 < theta < PI.
Let d := 1 / 1000.
Let k := cos d.
Lemma k_bounds : 0 < k < 1.
Proof.
  unfold k, d. pose proof PI2_3_2. split; [apply cos_gt_0; lra|]. assert (cos (1 / 1000) < cos 0) by (apply cos_decreasing_1; lra). rewrite cos_0 in *. lra.
Qed.
Lemma sig_pos : 0 < sin d.
Proof. apply sin_gt_0; unfold d; pose proof PI2_3_2; lra. Qed.

Lemma cos_norm_sphere : cos_norm (fun _ _ => c) phi theta = (sin theta * sin theta + k * (cos theta * cos theta)) / sqrt (sin theta * sin theta + k * k * (cos theta * cos theta)).
Proof.
  unfold cos_norm. cbv zeta. fold d. unfold cartesian. rewrite !Rmult_1_l. rewrite !sin_minus, !sin_plus, !cos_minus, !cos_plus. fold k.
  pose proof k_bounds as Hk. pose proof sig_pos as Hs. set (sg := sin d) in *. clearbody sg. assert (St : 0 < sin theta) by (apply sin_gt_0; lra).
  pose proof (sin2_cos2 phi) as Q. unfold Rsqr in Q. set (sp := sin phi) in *. set (cp := cos phi) in *. set (st := sin theta) in *. set (ct := cos theta) in *.
  match goal with |- context [sqrt (?X * ?X + ?Y * ?Y + ?Z * ?Z)] => set (xn := X); set (yn := Y); set (zn := Z) end.
  set (m := c * c * (8 * st * k * sg * sg)).
  assert (Ex : xn = m * (st * cp)) by (unfold xn, m; ring).
  assert (Ey : yn = m * (st * sp)) by (unfold yn, m; ring).
  assert (Ez : zn = m * (k * ct)) by (unfold zn, m; transitivity (c * c * (8 * st * k * sg * sg) * (k * ct) * (sp * sp + cp * cp)); [ring|rewrite Q; ring]).
  assert (Pm : 0 < m) by (unfold m; repeat apply Rmult_lt_0_compat; lra).
  set (D := st * st + k * k * (ct * ct)). assert (HD : 0 < D) by (unfold D; nra).
  assert (En : sqrt (xn * xn + yn * yn + zn * zn) = m * sqrt D).
  { rewrite Ex, Ey, Ez. replace (m * (st * cp) * (m * (st * cp)) + m * (st * sp) * (m * (st * sp)) + m * (k * ct) * (m * (k * ct))) with (m * m * D).
    - rewrite sqrt_mult by nra. rewrite sqrt_square by lra. reflexivity.
    - unfold D. transitivity (m * m * (st * st * (sp * sp + cp * cp) + k * k * (ct * ct))); [rewrite Q; ring|ring]. }
  rewrite En, Ex, Ey, Ez. assert (0 < sqrt D) by (apply sqrt_lt_R0; exact HD).
  transitivity ((st * st * (sp * sp + cp * cp) + k * (ct * ct)) / sqrt D); [field; split; lra|rewrite Q, Rmult_1_r; reflexivity].
Qed.

Lemma cos_norm_bounds : k <= cos_norm (fun _ _ => c) phi theta <= 1.
Proof.
  rewrite cos_norm_sphere. pose proof k_bounds as Hk. assert (St : 0 < sin theta) by (apply sin_gt_0; lra). pose proof (sin2_cos2 theta) as Q. unfold Rsqr in Q.
  set (a := sin theta * sin theta) in *. set (b := cos theta * cos theta) in *. assert (0 < a) by (apply Rmult_lt_0_compat; assumption). assert (0 <= b) by apply Rle_0_sqr. clearbody a b. set (D := a + k * k * b). assert (HD : 0 < D) by (unfold D; nra).
  pose proof (sqrt_lt_R0 D HD) as Sp. pose proof (sqrt_sqrt D (Rlt_le _ _ HD)) as Sq. assert (Kk : 0 <= k * k <= 1) by nra. assert (D <= 1) by (unfold D; assert (k * k * b <= 1 * b) by (apply Rmult_le_compat_r; lra); lra). assert (sqrt D <= 1) by (rewrite <- sqrt_1; apply sqrt_le_1_alt; assumption).
  split.
  - apply Rmult_le_reg_r with (sqrt D); [exact Sp|]. unfold Rdiv. rewrite Rmult_assoc, Rinv_l, Rmult_1_r by lra. nra.
  - apply Rmult_le_reg_r with (sqrt D); [exact Sp|]. unfold Rdiv. rewrite Rmult_assoc, Rinv_l, Rmult_1_r by lra. rewrite Rmult_1_l.
    assert (Cs : (a + k * b) * (a + k * b) <= sqrt D * sqrt D). { rewrite Sq. unfold D. replace (a + k * k * b) with ((a + k * k * b) * (a + b)) by (rewrite Q; ring). assert (0 <= a * b * ((1 - k) * (1 - k))) by (apply Rmult_le_pos; [apply Rmult_le_pos; lra|apply Rle_0_sqr]). lra. }
    assert (0 <= a + k * b) by nra. nra.
Qed.
End Sphere.

Lemma fold_sum {A} (f : A -> R) l : forall a, fold_left (fun s x => s + f x) l a = a + total (map f l).
Proof. induction l as [|x l IH]; intros a; cbn [fold_left map]; [unfold total; cbn; lra|]. rewrite IH. unfold total. cbn [fold_right]. lra. Qed.

(** The area of a sphere: between the true value and 1/cos(0.001) times that, for any angles. *)
Theorem C184_sphere : forall c angles, 0 < c -> angles <> [] -> (forall a, In a angles -> 0 < snd a < PI) ->
  4 * PI * (c * c) <= surface_area (fun _ _ => c) angles <= 4 * PI * (c * c) / cos (1 / 1000).
Proof.
  intros c angles Hc Hne Hth. unfold surface_area. rewrite fold_sum, Rplus_0_l. change (List.length angles) with (length angles).
  assert (N : 0 < INR (length angles)) by (apply lt_0_INR; destruct angles; [contradiction|cbn; lia]). pose proof PI_RGT_0. pose proof (k_bounds (PI / 2) ltac:(pose proof PI_RGT_0; lra)) as Hk. cbv zeta in Hk.
  assert (G : INR (length angles) * (c * c) <= total (map (area_element (fun _ _ => c)) angles) <= INR (length angles) * (c * c / cos (1 / 1000))).
  { clear Hne N. induction angles as [|a l IH]; [unfold total; cbn; lra|]. specialize (IH (fun b Hb => Hth b (or_intror Hb))). cbn [length map]. rewrite S_INR. unfold total in *. cbn [fold_right].
    assert (E : c * c <= area_element (fun _ _ => c) a <= c * c / cos (1 / 1000)).
    { unfold area_element. pose proof (cos_norm_bounds c (fst a) (snd a) Hc (Hth a (or_introl eq_refl))) as B. cbv zeta in B. set (q := cos_norm _ _ _) in *. clearbody q. assert (0 < c * c) by (apply Rmult_lt_0_compat; assumption).
      assert (0 < q) by lra. unfold Rdiv. split.
      - rewrite <- (Rmult_1_r (c * c)) at 1. apply Rmult_le_compat_l; [lra|]. rewrite <- Rinv_1 at 1. apply Rinv_le_contravar; lra.
      - apply Rmult_le_compat_l; [lra|]. apply Rinv_le_contravar; lra. }
    lra. }
  set (T := total _) in *. assert (c * c <= T / INR (length angles) <= c * c / cos (1 / 1000)).
  { split; (apply Rmult_le_reg_r with (INR (length angles)); [exact N|]); unfold Rdiv at 1; rewrite ?Rmult_assoc, ?Rinv_l, ?Rmult_1_r by lra; try lra. }
  unfold Rdiv in *. nra.
Qed.
Print Assumptions C184_sphere.

(** Scaling a shell by t scales its area by t^2 and its volume by t^3. *)
Lemma cos_norm_scale (s : Shell) t phi theta : 0 < t -> cos_norm (fun p q => t * s p q) phi theta = cos_norm s phi theta.
Proof.
  intros Ht. unfold cos_norm, cartesian. cbv zeta.
  match goal with |- ?L = ?Rr => match Rr with context [sqrt (?X * ?X + ?Y * ?Y + ?Z * ?Z)] => set (x := X); set (y := Y); set (z := Z) end end.
  match goal with |- ?L = ?Rr => match L with context [sqrt (?X * ?X + ?Y * ?Y + ?Z * ?Z)] => set (x' := X); set (y' := Y); set (z' := Z) end end.
  assert (Ex : x' = t * t * x) by (unfold x', x; ring). assert (Ey : y' = t * t * y) by (unfold y', y; ring). assert (Ez : z' = t * t * z) by (unfold z', z; ring).
  clearbody x' y' z' x y z. subst x' y' z'. assert (Pt : 0 < t * t) by (apply Rmult_lt_0_compat; assumption).
  assert (En : sqrt (t * t * x * (t * t * x) + t * t * y * (t * t * y) + t * t * z * (t * t * z)) = t * t * sqrt (x * x + y * y + z * z)).
  { replace (t * t * x * (t * t * x) + t * t * y * (t * t * y) + t * t * z * (t * t * z)) with ((t * t) * (t * t) * (x * x + y * y + z * z)) by ring. rewrite sqrt_mult_alt by nra. rewrite sqrt_square by lra. reflexivity. }
  rewrite En. set (n := sqrt (x * x + y * y + z * z)). assert (G : forall u, t * t * u / (t * t * n) = u / n).
  { intros u. destruct (Req_dec n 0) as [-> |Hn]; [|field; split; [exact Hn|lra]]. rewrite Rmult_0_r. unfold Rdiv. rewrite Rinv_0. ring. }
  rewrite !G. reflexivity.
Qed.
Theorem C184_scaling : forall (s : Shell) t angles, 0 < t ->
  surface_area (fun p q => t * s p q) angles = t * t * surface_area s angles /\ volume (fun p q => t * s p q) angles = t * t * t * volume s angles.
Proof.
  intros s t angles Ht. split.
  - unfold surface_area. rewrite !fold_sum, !Rplus_0_l. assert (E : total (map (area_element (fun p q => t * s p q)) angles) = t * t * total (map (area_element s) angles)).
    { induction angles as [|a l IH]; [unfold total; cbn; ring|]. unfold total in *. cbn [map fold_right]. rewrite IH. unfold area_element at 1 3. rewrite cos_norm_scale by exact Ht. unfold Rdiv. ring. }
    rewrite E. unfold Rdiv. ring.
  - unfold volume. cbv zeta.
    assert (G : forall sh : Shell, fold_left (fun sum a => sum + sh (fst a) (snd a) * sh (fst a) (snd a) * sh (fst a) (snd a)) angles 0 = total (map (fun a => sh (fst a) (snd a) * sh (fst a) (snd a) * sh (fst a) (snd a)) angles)).
    { intros sh. rewrite (fold_sum (fun a : R * R => sh (fst a) (snd a) * sh (fst a) (snd a) * sh (fst a) (snd a))). lra. }
    rewrite (G s), (G (fun p q => t * s p q)).
    assert (E : total (map (fun a => t * s (fst a) (snd a) * (t * s (fst a) (snd a)) * (t * s (fst a) (snd a))) angles) = t * t * t * total (map (fun a => s (fst a) (snd a) * s (fst a) (snd a) * s (fst a) (snd a)) angles)).
    { induction angles as [|a l IH]; [unfold total; cbn; ring|]. unfold total in *. cbn [map fold_right]. rewrite IH; [ring|]. intros sh. pose proof (G sh) as K. clear -K. rewrite (fold_sum (fun a : R * R => sh (fst a) (snd a) * sh (fst a) (snd a) * sh (fst a) (snd a))). unfold total. lra. }
    rewrite E. unfold Rdiv. ring.
Qed.
Print Assumptions C184_scaling.
Example C184_nonvacuous : 4 * PI * (2 * 2) <= surface_area (fun _ _ => 2) [(0, 1); (1, 2)] <= 4 * PI * (2 * 2) / cos (1 / 1000) /\
  surface_area (fun _ th => 3 * (1 + th)) [(0, 1); (1, 2)] = 3 * 3 * surface_area (fun _ th => 1 + th) [(0, 1); (1, 2)].
Proof.
  split; [apply C184_sphere; [lra|discriminate|]|apply (proj1 (C184_scaling (fun _ th => 1 + th) 3 _ ltac:(lra)))].
  pose proof PI2_3_2. intros a [<-|[<-|[]]]; cbn; lra.
Qed.

(** ** C185: Axes *)
Lemma total_lin (f g : vec3 -> R) u v pts : total (map (fun p : R * vec3 => fst p * (u * f (snd p) + v * g (snd p))) pts) = u * total (map (fun p => fst p * f (snd p)) pts) + v * total (map (fun p => fst p * g (snd p)) pts).
Proof. unfold total. induction pts as [|p pts IH]; cbn [map fold_right]; [ring|]. rewrite IH. ring. Qed.

(** The matrix that is diagonalised is the inertia tensor about the centroid of the sampled points of the shell, weighted with their surface elements. *)
Theorem C185_tensor : forall (s : Shell) angles, let pts := map (fun a => (area_element s a, scale3 (s (fst a) (snd a)) (direction a))) angles in weights pts <> 0 ->
  axes_matrix (shell_moments s angles) = map (fun i => map (inertia pts i) [0; 1; 2]%nat) [0; 1; 2]%nat.
Proof.
  intros s angles pts Hw.
  assert (M : forall l m, fold_left (moments_step s) l m =
    let q := map (fun a => (area_element s a, scale3 (s (fst a) (snd a)) (direction a))) l in let S f := total (map (fun p : R * vec3 => fst p * f (snd p)) q) in
    {| mo_xx := mo_xx m + S (fun x => coord 0 x * coord 0 x); mo_yy := mo_yy m + S (fun x => coord 1 x * coord 1 x); mo_zz := mo_zz m + S (fun x => coord 2 x * coord 2 x);
       mo_xy := mo_xy m + S (fun x => coord 0 x * coord 1 x); mo_yz := mo_yz m + S (fun x => coord 1 x * coord 2 x); mo_zx := mo_zx m + S (fun x => coord 2 x * coord 0 x);
       mo_x := mo_x m + S (coord 0); mo_y := mo_y m + S (coord 1); mo_z := mo_z m + S (coord 2); mo_1 := mo_1 m + weights q |}).
  { induction l as [|a l IH]; intros m; cbn [fold_left map].
    - cbv zeta. unfold weights, total. cbn [map fold_right]. rewrite !Rplus_0_r. destruct m. reflexivity.
    - rewrite IH. cbv zeta. destruct a as [phi th]. unfold moments_step, cartesian, weights, total. cbn [fst snd scale3 direction coord map fold_right mo_xx mo_yy mo_zz mo_xy mo_yz mo_zx mo_x mo_y mo_z mo_1]. f_equal; ring. }
  unfold shell_moments. rewrite M. cbv zeta. fold pts. clear M. unfold axes_matrix. cbn [mo_xx mo_yy mo_zz mo_xy mo_yz mo_zx mo_x mo_y mo_z mo_1]. rewrite !Rplus_0_l.
  set (W := weights pts) in *. set (Sm := fun f : vec3 -> R => total (map (fun p : R * vec3 => fst p * f (snd p)) pts)).
  set (mx := Sm (coord 0)). set (my := Sm (coord 1)). set (mz := Sm (coord 2)).
  change (total (map (fun p : R * vec3 => fst p * coord 0 (snd p)) pts)) with mx. change (total (map (fun p : R * vec3 => fst p * coord 1 (snd p)) pts)) with my. change (total (map (fun p : R * vec3 => fst p * coord 2 (snd p)) pts)) with mz.
  assert (Cov : forall i j ci cj, (i < 3)%nat -> (j < 3)%nat -> ci = Sm (coord i) / W -> cj = Sm (coord j) / W -> Sm (fun x => (coord i x - ci) * (coord j x - cj)) = Sm (fun x => coord i x * coord j x) - W * ci * cj).
  { intros i j ci cj Hi Hj Ei Ej. assert (L : Sm (fun x => (coord i x - ci) * (coord j x - cj)) = Sm (fun x => coord i x * coord j x) - ci * Sm (coord j) - cj * Sm (coord i) + ci * cj * W).
    { unfold Sm, W, weights, total. clear. induction pts as [|p l IH]; cbn [map fold_right]; [ring|]. rewrite IH. ring. }
    rewrite L. replace (Sm (coord j)) with (cj * W) by (rewrite Ej; field; exact Hw). replace (Sm (coord i)) with (ci * W) by (rewrite Ei; field; exact Hw). ring. }
  assert (In_ij : forall i j, (i < 3)%nat -> (j < 3)%nat -> inertia pts i j =
    ((if Nat.eqb i j then Sm (fun x => (coord 0 x - mx / W) * (coord 0 x - mx / W)) + Sm (fun x => (coord 1 x - my / W) * (coord 1 x - my / W)) + Sm (fun x => (coord 2 x - mz / W) * (coord 2 x - mz / W)) else 0) - Sm (fun x => (coord i x - Sm (coord i) / W) * (coord j x - Sm (coord j) / W))) / W).
  { intros i j Hi Hj. unfold inertia, wmean. fold W. f_equal. change (centroid pts) with (mx / W, my / W, mz / W).
    assert (Cc : forall n x, (n < 3)%nat -> coord n (sub3 x (mx / W, my / W, mz / W)) = coord n x - Sm (coord n) / W).
    { intros n [[a b] d] Hn. destruct n as [|[|[|n]]]; [reflexivity|reflexivity|reflexivity|lia]. }
    assert (Dd : forall x, dot3 (sub3 x (mx / W, my / W, mz / W)) (sub3 x (mx / W, my / W, mz / W)) = (coord 0 x - mx / W) * (coord 0 x - mx / W) + (coord 1 x - my / W) * (coord 1 x - my / W) + (coord 2 x - mz / W) * (coord 2 x - mz / W)).
    { intros [[a b] d]. reflexivity. }
    unfold Sm at 1 2 3 4. unfold total. generalize pts as l. induction l as [|p l IH]; cbn [map fold_right]; [destruct (Nat.eqb i j); ring|]. rewrite IH, !Cc, Dd by assumption. destruct (Nat.eqb i j); ring. }
  cbn [map]. rewrite !In_ij by lia. cbn [Nat.eqb]. rewrite !Cov by (reflexivity || lia). fold mx my mz.
  assert (Sym : forall i j, Sm (fun x => coord i x * coord j x) = Sm (fun x => coord j x * coord i x)).
  { intros i j. unfold Sm, total. generalize pts as l. induction l as [|p l IH]; cbn [map fold_right]; [reflexivity|]. rewrite IH. ring. }
  rewrite (Sym 1%nat 0%nat), (Sym 2%nat 1%nat), (Sym 0%nat 2%nat).
  repeat match goal with |- context [total (map (fun p : R * vec3 => fst p * (coord ?i (snd p) * coord ?j (snd p))) pts)] => change (total (map (fun p : R * vec3 => fst p * (coord i (snd p) * coord j (snd p))) pts)) with (Sm (fun x => coord i x * coord j x)) end.
  generalize (Sm (fun x => coord 0 x * coord 0 x)) (Sm (fun x => coord 1 x * coord 1 x)) (Sm (fun x => coord 2 x * coord 2 x)) (Sm (fun x => coord 0 x * coord 1 x)) (Sm (fun x => coord 1 x * coord 2 x)) (Sm (fun x => coord 2 x * coord 0 x)). intros.
  repeat (f_equal; try (field; exact Hw)).
Qed.
Print Assumptions C185_tensor.

(** A thin homoeoid with the half axes a, b, c has the moments of inertia (b^2 + c^2)/3, ... per mass. *)
Definition homoeoid (a b c : R) : R * R * R := ((b * b + c * c) / 3, (a * a + c * c) / 3, (a * a + b * b) / 3).

Lemma half_axes a b c : 0 < a -> 0 < b -> 0 < c -> let '(Ix, Iy, Iz) := homoeoid a b c in axes_of_eigenvalues Ix Iy Iz = trisort a c b.
Proof.
  intros Ha Hb Hc. unfold homoeoid, axes_of_eigenvalues. cbv zeta.
  replace (3 * ((a * a + c * c) / 3 + (a * a + b * b) / 3 - (b * b + c * c) / 3) / 2) with (a * a) by field.
  replace (3 * ((a * a + c * c) / 3) - a * a) with (c * c) by field. replace (3 * ((a * a + b * b) / 3) - a * a) with (b * b) by field. rewrite !sqrt_square by lra. reflexivity.
Qed.

(** The lengths: the three half axes in decreasing order, times the corrections of the tables, unless the first and the third are equal and longer than the second. *)
Theorem C185_lengths_partial : forall eigen ratios s angles a b c v0 v1 v2, 0 < a -> 0 < b -> 0 < c -> ~ (a = c /\ b < a) -> eigen (axes_matrix (shell_moments s angles)) = Some (homoeoid a b c, (v0, v1, v2)) ->
  exists l1 l2 l3, Permutation [l1; l2; l3] [a; b; c] /\ l3 <= l2 <= l1 /\
    forall kac kbc kc, ratios (l3 / l1) (l2 / l1) = Some (kac, kbc, kc) -> exists A B C vec, shell_axes eigen ratios s angles = Some (A, B, C, vec) /\ A = kc * l1 /\ B = kbc * kc * l2 /\ C = kac * kc * l3.
Proof.
  intros eigen ratios s angles a b c v0 v1 v2 Ha Hb Hc Tie Ee. unfold shell_axes. rewrite Ee. pose proof (half_axes a b c Ha Hb Hc) as Hx. unfold homoeoid in *. rewrite Hx. unfold trisort.
  assert (G : forall l1 l2 l3 k, Permutation [l1; l2; l3] [a; b; c] -> l3 <= l2 <= l1 -> exists l1' l2' l3', Permutation [l1'; l2'; l3'] [a; b; c] /\ l3' <= l2' <= l1' /\ forall kac kbc kc, ratios (l3' / l1') (l2' / l1') = Some (kac, kbc, kc) ->
    exists A B C vec, match ratios (l3 / l1) (l2 / l1) with Some t => let '(acRatio, bcRatio, cRatio) := t in
      let '(x, y, z) := match k with O => v0 | 1%nat => v1 | _ => v2 end in Some (cRatio * l1, bcRatio * (l2 / l1) * (cRatio * l1), acRatio * (l3 / l1) * (cRatio * l1), (x / sqrt (x * x + y * y + z * z), y / sqrt (x * x + y * y + z * z), z / sqrt (x * x + y * y + z * z))) | None => None end = Some (A, B, C, vec) /\
      A = kc * l1' /\ B = kbc * kc * l2' /\ C = kac * kc * l3').
  { intros l1 l2 l3 k P O. exists l1, l2, l3. split; [exact P|]. split; [exact O|]. intros kac kbc kc ->. destruct (match k with O => v0 | 1%nat => v1 | _ => v2 end) as [[x y] z]. do 4 eexists. split; [reflexivity|].
    assert (0 < l1). { assert (K : In l1 [a; b; c]) by (rewrite <- P; left; reflexivity). destruct K as [<-|[<-|[<-|[]]]]; assumption. }
    split; [reflexivity|]. split; field; lra. }
  assert (P1 : Permutation [a; c; b] [a; b; c]) by (constructor; apply perm_swap).
  assert (P2 : Permutation [c; b; a] [a; b; c]). { etransitivity; [apply perm_swap|]. etransitivity; [apply perm_skip, perm_swap|]. etransitivity; [apply perm_swap|]. reflexivity. }
  assert (P3 : Permutation [c; a; b] [a; b; c]). { etransitivity; [apply perm_swap|]. exact P1. }
  assert (P4 : Permutation [b; a; c] [a; b; c]) by apply perm_swap.
  assert (P5 : Permutation [b; c; a] [a; b; c]). { etransitivity; [apply perm_skip, perm_swap|]. exact P4. }
  cbv zeta. assert (Tie' : b < a -> c < a \/ a < c) by (intros Hba; destruct (Rtotal_order a c) as [?|[?|?]]; auto; exfalso; apply Tie; auto).
  destruct (Rltb_spec c a), (Rltb_spec b a), (Rltb_spec a c), (Rltb_spec b c); cbn [andb]; try (exfalso; lra); try (exfalso; destruct Tie'; lra);
    repeat match goal with |- context [Rltb ?x ?y] => destruct (Rltb_spec x y); try (exfalso; lra) end;
    first [exact (G a c b 0%nat P1 ltac:(lra)) | exact (G a b c 0%nat (Permutation_refl _) ltac:(lra)) | exact (G c b a 1%nat P2 ltac:(lra)) | exact (G c a b 1%nat P3 ltac:(lra)) | exact (G b a c 2%nat P4 ltac:(lra)) | exact (G b c a 2%nat P5 ltac:(lra))].
Qed.
Print Assumptions C185_lengths_partial.

(** In that case the shortest axis is returned as the major one. *)
Theorem C185_tie_refuted : forall eigen s angles v0 v1 v2, eigen (axes_matrix (shell_moments s angles)) = Some (homoeoid 2 1 2, (v0, v1, v2)) ->
  exists A B C vec, shell_axes eigen (fun _ _ => Some (1, 1, 1)) s angles = Some (A, B, C, vec) /\ A = 1 /\ B = 2 /\ C = 2.
Proof.
  intros eigen s angles v0 v1 v2 Ee. unfold shell_axes. rewrite Ee. pose proof (half_axes 2 1 2 ltac:(lra) ltac:(lra) ltac:(lra)) as Hx. unfold homoeoid in *. rewrite Hx. unfold trisort.
  assert (E22 : Rltb 2 2 = false) by (destruct (Rltb_spec 2 2); [lra|reflexivity]). rewrite !E22. cbn [andb]. rewrite E22. destruct v2 as [[x y] z]. do 4 eexists. split; [reflexivity|]. split; [lra|]. split; field.
Qed.
Print Assumptions C185_tie_refuted.

(** The direction: if the first eigenvalue belongs to the major axis, that of its eigenvector ... *)
Theorem C185_direction_partial : forall eigen ratios s angles a b c v0 v1 v2 A B C vec, 0 < b -> b < a -> 0 < c -> c < a -> eigen (axes_matrix (shell_moments s angles)) = Some (homoeoid a b c, (v0, v1, v2)) ->
  shell_axes eigen ratios s angles = Some (A, B, C, vec) -> norm3 v0 <> 0 -> unit3 vec /\ scale3 (norm3 v0) vec = v0.
Proof.
  intros eigen ratios s angles a b c v0 v1 v2 A B C vec Hb Hba Hc Hca Ee. unfold shell_axes. rewrite Ee. pose proof (half_axes a b c ltac:(lra) Hb Hc) as Hx. unfold homoeoid in *. rewrite Hx. unfold trisort.
  destruct (Rltb_spec c a); [|lra]. destruct (Rltb_spec b a); [|lra]. cbn [andb]. destruct v0 as [[x y] z]. intros H Hn.
  assert (E : vec = (x / norm3 (x, y, z), y / norm3 (x, y, z), z / norm3 (x, y, z))).
  { destruct (Rltb b c); (destruct (ratios _ _) as [[[? ?] ?]|]; [|discriminate]); injection H as _ _ _ <-; reflexivity. }
  rewrite E. assert (Pos : 0 < norm3 (x, y, z)) by (pose proof (sqrt_pos (dot3 (x, y, z) (x, y, z))); unfold norm3 in *; lra).
  assert (Sq : norm3 (x, y, z) * norm3 (x, y, z) = x * x + y * y + z * z) by (unfold norm3, dot3; apply sqrt_sqrt; pose proof (Rle_0_sqr x); pose proof (Rle_0_sqr y); pose proof (Rle_0_sqr z); unfold Rsqr in *; lra).
  set (n := norm3 (x, y, z)) in *. split.
  - unfold unit3, dot3. transitivity ((x * x + y * y + z * z) / (n * n)); [field; lra|]. rewrite Sq. field. rewrite <- Sq. apply Rgt_not_eq. nra.
  - unfold scale3. f_equal; [f_equal|]; field; lra.
Qed.
Print Assumptions C185_direction_partial.

(** ... but if it is the second eigenvalue, the direction of the third eigenvector is returned, that of the wrong axis. (Likewise the other way round.) *)
Theorem C185_direction_refuted : forall eigen ratios s angles a b c v0 v1 v2 A B C vec, 0 < a -> a < b -> 0 < c -> c < b -> eigen (axes_matrix (shell_moments s angles)) = Some (homoeoid a b c, (v0, v1, v2)) ->
  shell_axes eigen ratios s angles = Some (A, B, C, vec) -> norm3 v2 <> 0 -> scale3 (norm3 v2) vec = v2.
Proof.
  intros eigen ratios s angles a b c v0 v1 v2 A B C vec Hb Hba Hc Hca Ee. unfold shell_axes. rewrite Ee. pose proof (half_axes a b c ltac:(lra) ltac:(lra) Hc) as Hx. unfold homoeoid in *. rewrite Hx. unfold trisort.
  destruct (Rltb_spec b a); [lra|]. destruct (Rltb_spec b c); [lra|]. rewrite !andb_false_r. destruct v2 as [[x y] z]. intros H Hn.
  assert (E : vec = (x / norm3 (x, y, z), y / norm3 (x, y, z), z / norm3 (x, y, z))).
  { destruct (Rltb c a); (destruct (ratios _ _) as [[[? ?] ?]|]; [|discriminate]); injection H as _ _ _ <-; reflexivity. }
  rewrite E. assert (Pos : 0 < norm3 (x, y, z)) by (pose proof (sqrt_pos (dot3 (x, y, z) (x, y, z))); unfold norm3 in *; lra). set (nn := norm3 (x, y, z)) in *. unfold scale3. f_equal; [f_equal|]; field; lra.
Qed.
Print Assumptions C185_direction_refuted.

(** An ellipsoid with half axes 1, 3, 2 along x, y, z: the major axis is y, the result is z. *)
Example C185_nonvacuous : exists A B C vec, shell_axes (fun _ => Some (homoeoid 1 3 2, ((1, 0, 0), (0, 1, 0), (0, 0, 1)))) (fun _ _ => Some (1, 1, 1)) (fun _ _ => 1) [(0, 1)] = Some (A, B, C, vec) /\
  A = 3 /\ B = 2 /\ C = 1 /\ vec = (0, 0, 1).
Proof.
  destruct (C185_lengths_partial (fun _ => Some (homoeoid 1 3 2, ((1, 0, 0), (0, 1, 0), (0, 0, 1)))) (fun _ _ => Some (1, 1, 1)) (fun _ _ => 1) [(0, 1)] 1 3 2 (1, 0, 0) (0, 1, 0) (0, 0, 1) ltac:(lra) ltac:(lra) ltac:(lra) ltac:(lra) eq_refl) as (l1 & l2 & l3 & P & O & H).
  destruct (H 1 1 1 eq_refl) as (A & B & C & vec & E & EA & EB & EC). exists A, B, C, vec. split; [exact E|].
  assert (Kn : norm3 (0, 0, 1) = 1) by (unfold norm3, dot3; replace (0 * 0 + 0 * 0 + 1 * 1) with 1 by ring; apply sqrt_1).
  pose proof (C185_direction_refuted _ _ _ _ 1 3 2 _ _ _ A B C vec ltac:(lra) ltac:(lra) ltac:(lra) ltac:(lra) eq_refl E ltac:(rewrite Kn; lra)) as D. rewrite Kn in D.
  assert (I1 : In l1 [1; 3; 2]) by (rewrite <- P; left; reflexivity). assert (I2 : In l2 [1; 3; 2]) by (rewrite <- P; right; left; reflexivity). assert (I3 : In l3 [1; 3; 2]) by (rewrite <- P; right; right; left; reflexivity).
  assert (Sm : l1 + l2 + l3 = 6). { pose proof (total_perm _ _ P) as T. unfold total in T. cbn in T. lra. }
  assert (Pr : l1 * l2 * l3 = 6). { assert (Q : forall l l' : list R, Permutation l l' -> fold_right Rmult 1 l = fold_right Rmult 1 l') by (induction 1; cbn; nra). specialize (Q _ _ P). cbn in Q. lra. }
  destruct vec as [[x y] z]. unfold scale3 in D. injection D as D1 D2 D3.
  cbn in I1, I2, I3. destruct I1 as [<-|[<-|[<-|[]]]]; destruct I2 as [<-|[<-|[<-|[]]]]; destruct I3 as [<-|[<-|[<-|[]]]]; try (exfalso; lra); (split; [lra|]; split; [lra|]; split; [lra|]; f_equal; [f_equal|]; lra).
Qed.

(** ** C186: RadiusHistogram *)
Lemma filter_le {A} (f g : A -> bool) l : (forall x, In x l -> f x = true -> g x = true) -> (length (filter f l) <= length (filter g l))%nat.
Proof. induction l as [|a l IH]; intros H; [reflexivity|]. cbn [filter]. specialize (IH (fun x Hx => H x (or_intror Hx))). pose proof (H a (or_introl eq_refl)). destruct (f a), (g a); cbn [length]; try lia. Qed.
Lemma how_many_cons v vals lo hi : how_many (v :: vals) lo hi = ((if Rle_dec lo v then if Rlt_dec v hi then 1 else 0 else 0) + how_many vals lo hi)%nat.
Proof. unfold how_many. cbn [filter]. destruct (Rle_dec lo v); [destruct (Rlt_dec v hi)|]; reflexivity. Qed.

Lemma wr_at (l : list nat) i v : (i < length l)%nat -> exists l', wr l i v = Some l' /\ length l' = length l /\ nth_error l' i = Some v /\ forall j, j <> i -> nth_error l' j = nth_error l j.
Proof.
  intros H. destruct (wr_some l i v 0%nat H) as (l' & E & L & N). exists l'. split; [exact E|]. split; [exact L|]. split.
  - rewrite (nth_error_nth' _ 0%nat) by lia. rewrite N, Nat.eqb_refl. reflexivity.
  - intros j Hj. destruct (Nat.lt_ge_cases j (length l)) as [Hlt|Hge].
    + rewrite !(nth_error_nth' _ 0%nat) by lia. rewrite N. destruct (Nat.eqb_spec j i); [contradiction|reflexivity].
    + rewrite !(proj2 (nth_error_None _ _)); [reflexivity|exact Hge|lia].
Qed.

Section Hist.
Variables (s : Shell) (bins : nat) (rMin dr : R).
Hypothesis Hb : (0 < bins)%nat.
Hypothesis Hd : 0 < dr.
Let val (a : R * R) := s (fst a) (snd a).
Lemma histogram_loop l : forall ns count, length ns = bins -> exists ns' count', fold_left (histogram_step s bins rMin dr) l (Some (ns, count)) = Some (ns', count') /\ length ns' = bins /\
  count' = (count + how_many (map val l) rMin (rMin + INR bins * dr))%nat /\
  forall i n, nth_error ns i = Some n -> nth_error ns' i = Some (n + how_many (map val l) (rMin + INR i * dr) (rMin + (INR i + 1) * dr))%nat.
Proof.
  induction l as [|a l IH]; intros ns count L.
  { exists ns, count. split; [reflexivity|]. split; [exact L|]. split; [unfold how_many; cbn; lia|]. intros i n Hi. rewrite Hi. f_equal. unfold how_many. cbn. lia. }
  cbn [fold_left map]. set (v := val a).
  assert (Q : forall x : R, (x - rMin) / dr * dr = x - rMin) by (intros; field; lra).
  assert (Out : ~ (rMin <= v < rMin + INR bins * dr) -> histogram_step s bins rMin dr (Some (ns, count)) a = Some (ns, count)).
  { intros K. unfold histogram_step. fold (val a). fold v. cbv zeta. destruct (Rltb_spec ((v - rMin) / dr) 0) as [_|H]; [reflexivity|].
    assert (H0 : 0 <= (v - rMin) / dr) by lra. destruct (Rtrunc_pos _ H0) as (T0 & T1). destruct (Z.leb_spec (Z.of_nat bins) (Rtrunc ((v - rMin) / dr))) as [_|Hlt]; [reflexivity|]. exfalso. apply K. pose proof (Q v).
    apply Zlt_le_succ, IZR_le in Hlt. rewrite succ_IZR in Hlt. rewrite <- INR_IZR_INZ in Hlt. split; nra. }
  destruct (Rle_dec rMin v) as [H1|H1]; [destruct (Rlt_dec v (rMin + INR bins * dr)) as [H2|H2]|].
  - assert (H0 : 0 <= (v - rMin) / dr) by (apply Rmult_le_reg_r with dr; [exact Hd|]; rewrite Q; lra). destruct (Rtrunc_pos _ H0) as (T0 & T1). pose proof (Q v) as Qv. set (t := (v - rMin) / dr) in *.
    set (k := Z.to_nat (Rtrunc t)). assert (Ek : Rtrunc t = Z.of_nat k) by (unfold k; rewrite Z2Nat.id; auto). rewrite Ek, <- INR_IZR_INZ in T1.
    assert (Hk : (k < bins)%nat). { apply INR_lt. apply Rmult_lt_reg_r with dr; [exact Hd|]. nra. }
    destruct (nth_error ns k) as [n0|] eqn:En; [|apply nth_error_None in En; lia]. destruct (wr_at ns k (S n0) ltac:(lia)) as (ns1 & Ew & L1 & Wk & Wo).
    assert (St : histogram_step s bins rMin dr (Some (ns, count)) a = Some (ns1, S count)).
    { unfold histogram_step. fold (val a). fold v. cbv zeta. fold t. destruct (Rltb_spec t 0); [lra|]. rewrite Ek. destruct (Z.leb_spec (Z.of_nat bins) (Z.of_nat k)); [lia|]. destruct (Z.ltb_spec (Z.of_nat k) 0); [lia|]. rewrite Nat2Z.id. unfold rd. rewrite En, Ew. reflexivity. }
    rewrite St. destruct (IH ns1 (S count) ltac:(lia)) as (ns' & count' & E & L' & Ec & H). exists ns', count'. split; [exact E|]. split; [exact L'|]. split.
    + rewrite how_many_cons. destruct (Rle_dec rMin v); [|contradiction]. destruct (Rlt_dec v (rMin + INR bins * dr)); [|contradiction]. lia.
    + intros i n Hi. rewrite how_many_cons. destruct (Nat.eq_dec i k) as [->|Ne].
      * assert (n0 = n) by congruence. subst n0. rewrite (H k (S n) Wk). f_equal. destruct (Rle_dec (rMin + INR k * dr) v) as [_|K]; [|exfalso; apply K; nra]. destruct (Rlt_dec v (rMin + (INR k + 1) * dr)) as [_|K]; [lia|exfalso; apply K; nra].
      * rewrite (H i n) by (rewrite Wo by congruence; exact Hi). f_equal. destruct (Rle_dec (rMin + INR i * dr) v) as [G1|G1]; [|reflexivity]. destruct (Rlt_dec v (rMin + (INR i + 1) * dr)) as [G2|G2]; [|reflexivity]. exfalso. apply Ne.
        assert (A : INR i < INR k + 1) by (apply Rmult_lt_reg_r with dr; [exact Hd|]; nra). assert (B : INR k < INR i + 1) by (apply Rmult_lt_reg_r with dr; [exact Hd|]; nra). rewrite <- S_INR in A, B. apply INR_lt in A, B. lia.
  - rewrite Out by tauto. destruct (IH ns count L) as (ns' & count' & E & L' & Ec & H). exists ns', count'. split; [exact E|]. split; [exact L'|]. split.
    + rewrite how_many_cons. destruct (Rle_dec rMin v); [|contradiction]. destruct (Rlt_dec v (rMin + INR bins * dr)); [contradiction|]. lia.
    + intros i n Hi. rewrite how_many_cons, (H i n Hi). f_equal. destruct (Rle_dec (rMin + INR i * dr) v); [|lia]. destruct (Rlt_dec v (rMin + (INR i + 1) * dr)) as [G|]; [|lia]. exfalso. apply H2.
      assert (i < bins)%nat by (rewrite <- L; apply nth_error_Some; rewrite Hi; discriminate). assert (INR i + 1 <= INR bins) by (rewrite <- S_INR; apply le_INR; lia). nra.
  - rewrite Out by tauto. destruct (IH ns count L) as (ns' & count' & E & L' & Ec & H). exists ns', count'. split; [exact E|]. split; [exact L'|]. split.
    + rewrite how_many_cons. destruct (Rle_dec rMin v); [contradiction|]. lia.
    + intros i n Hi. rewrite how_many_cons, (H i n Hi). f_equal. destruct (Rle_dec (rMin + INR i * dr) v) as [G|]; [|lia]. exfalso. apply H1. pose proof (pos_INR i). nra.
Qed.
End Hist.

Lemma how_many_split vals lo w n : 0 < w -> how_many vals lo (lo + INR n * w) = fold_right Nat.add 0%nat (map (fun i => how_many vals (lo + INR i * w) (lo + (INR i + 1) * w)) (seq 0 n)).
Proof.
  intros Hw. induction n as [|n IH].
  - cbn [seq map fold_right INR]. induction vals as [|v vals IHv]; [reflexivity|]. rewrite how_many_cons, IHv. destruct (Rle_dec lo v); [|reflexivity]. destruct (Rlt_dec v (lo + 0 * w)); [lra|reflexivity].
  - rewrite seq_S, map_app. cbn [map Nat.add]. assert (F : forall l x, fold_right Nat.add 0%nat (l ++ [x]) = (fold_right Nat.add 0%nat l + x)%nat) by (induction l as [|y l IHl]; intros x; cbn; [lia|rewrite IHl; lia]).
    rewrite F, <- IH. clear F IH. rewrite S_INR. pose proof (pos_INR n). induction vals as [|v vals IHv]; [reflexivity|]. rewrite !how_many_cons, IHv.
    destruct (Rle_dec lo v), (Rlt_dec v (lo + (INR n + 1) * w)), (Rlt_dec v (lo + INR n * w)), (Rle_dec (lo + INR n * w) v); try lia; exfalso; nra.
Qed.

(** Bin i holds the fraction of the sampled radii within the range that fall into it, per width; the histogram integrates to 1. *)
Theorem C186_histogram : forall (s : Shell) angles bins rMin rMax, (0 < bins)%nat -> rMin < rMax ->
  let vals := map (fun a => s (fst a) (snd a)) angles in let w := (rMax - rMin) / INR bins in
  exists rs ns, radius_histogram s angles bins rMin rMax = Some (rs, ns) /\ length rs = bins /\ length ns = bins /\
    (forall i, (i < bins)%nat -> nth i rs 0 = rMin + (INR i + 1 / 2) * w /\ nth i ns 0 = INR (how_many vals (rMin + INR i * w) (rMin + (INR i + 1) * w)) / (INR (how_many vals rMin rMax) * w)) /\
    ((0 < how_many vals rMin rMax)%nat -> total (map (fun n => n * w) ns) = 1).
Proof.
  intros s angles bins rMin rMax Hb Hr vals w. assert (Nb : 0 < INR bins) by (apply lt_0_INR; exact Hb). assert (Hw : 0 < w) by (unfold w; apply Rdiv_lt_0_compat; lra).
  destruct (histogram_loop s bins rMin w Hb Hw angles (repeat 0%nat bins) 0%nat (repeat_length _ _)) as (ns & count & E & L & Ec & H). unfold radius_histogram. cbv zeta. fold w. rewrite E.
  assert (Er : rMin + INR bins * w = rMax) by (unfold w; field; lra). rewrite Er in Ec. cbn [Nat.add] in Ec. fold vals in Ec, H. subst count.
  assert (Hi : forall i, (i < bins)%nat -> nth_error ns i = Some (how_many vals (rMin + INR i * w) (rMin + (INR i + 1) * w))) by (intros i Hi; apply (H i 0%nat); apply nth_error_repeat; exact Hi).
  do 2 eexists. split; [reflexivity|]. split; [rewrite map_length, seq_length; reflexivity|]. split; [rewrite map_length; exact L|]. split.
  - intros i Hlt. split.
    + erewrite nth_error_nth; [|rewrite nth_error_map, (nth_error_nth' _ 0%nat) by (rewrite seq_length; exact Hlt); rewrite seq_nth by exact Hlt; reflexivity]. cbn [Nat.add]. ring.
    + erewrite nth_error_nth; [|rewrite nth_error_map, (Hi i Hlt); reflexivity]. reflexivity.
  - intros Hc. set (N := how_many vals rMin rMax) in *. assert (PN : 0 < INR N) by (apply lt_0_INR; exact Hc).
    assert (Ens : ns = map (fun i => how_many vals (rMin + INR i * w) (rMin + (INR i + 1) * w)) (seq 0 bins)).
    { apply (nth_ext _ _ 0%nat 0%nat); [rewrite map_length, seq_length; exact L|]. intros i Hlt. rewrite L in Hlt. rewrite (nth_error_nth _ _ _ (Hi i Hlt)). symmetry. apply nth_error_nth.
      rewrite nth_error_map, (nth_error_nth' _ 0%nat) by (rewrite seq_length; exact Hlt). rewrite seq_nth by exact Hlt. reflexivity. }
    rewrite map_map. assert (T : forall l : list nat, total (map (fun n => INR n / (INR N * w) * w) l) = INR (fold_right Nat.add 0%nat l) / INR N).
    { induction l as [|n l IH]; [unfold total; cbn; field; lra|]. unfold total in *. cbn [map fold_right]. rewrite IH, plus_INR. field. lra. }
    rewrite T, Ens, <- how_many_split, Er by exact Hw. fold N. field. lra.
Qed.
Print Assumptions C186_histogram.

Example C186_nonvacuous : exists rs ns, radius_histogram (fun _ th => th) [(0, 1 / 4); (0, 3 / 4); (0, 5); (0, 1 / 8)] 2 0 1 = Some (rs, ns) /\ nth 0 ns 0 = 4 / 3 /\ total (map (fun n => n * ((1 - 0) / INR 2)) ns) = 1.
Proof.
  destruct (C186_histogram (fun _ th => th) [(0, 1 / 4); (0, 3 / 4); (0, 5); (0, 1 / 8)] 2 0 1 ltac:(lia) ltac:(lra)) as (rs & ns & E & _ & _ & H & T). exists rs, ns. split; [exact E|].
  assert (N : how_many (map (fun a : R * R => snd a) [(0, 1 / 4); (0, 3 / 4); (0, 5); (0, 1 / 8)]) 0 1 = 3%nat).
  { cbn [map snd]. rewrite !how_many_cons. repeat (match goal with |- context [Rle_dec ?a ?b] => destruct (Rle_dec a b); try (exfalso; lra) | |- context [Rlt_dec ?a ?b] => destruct (Rlt_dec a b); try (exfalso; lra) end). reflexivity. }
  split.
  - destruct (H 0%nat ltac:(lia)) as [_ ->]. rewrite N. replace (how_many _ _ _) with 2%nat; [cbn; field|].
    cbn [map snd INR]. rewrite !how_many_cons. repeat (match goal with |- context [Rle_dec ?a ?b] => destruct (Rle_dec a b); try (exfalso; lra) | |- context [Rlt_dec ?a ?b] => destruct (Rlt_dec a b); try (exfalso; lra) end). reflexivity.
  - apply T. rewrite N. lia.
Qed.
