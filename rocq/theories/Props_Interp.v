(** * Properties C14-C17 and C41: math/interpolate. Floats are reals (see RealBase.v). *)
From Coq Require Import Lra Psatz.
From Verif Require Import GoBase RealBase InterpModel InterpSpec InterpProofs InterpProofs2 InterpProofs3 InterpProofs4 InterpProofs5 InterpProofs6 InterpProofs7 InterpProofs8.
Local Open Scope R_scope.
Local Open Scope list_scope.

(** ** C14. Search *)

(** Every increasing table, every x in range, every guess. *)
Theorem C14_search_any_guess : forall xs s x g, (2 <= List.length xs)%nat -> increasing xs -> s_init xs = Some s -> within xs x ->
  exists i, searchGuess g s x = Some (Z.of_nat i) /\ cell xs x i.
Proof.
  intros xs s x g H2 Hinc Hi (a & b & Ha & Hb & Hr).
  unfold s_init in Hi.
  assert (Ha' : at_ xs 0 = Some a) by exact Ha.
  assert (Hb' : at_ xs (Z.of_nat (List.length xs) - 1) = Some b) by (rewrite at_toNat by lia; rewrite <- Hb; f_equal; lia).
  rewrite Ha', Hb' in Hi. cbn [bindo] in Hi.
  assert (a < b) by (apply (Hinc O (List.length xs - 1)%nat a b); [lia|assumption|assumption]).
  assert (Hd : 0 < (b - a) / IZR (Z.of_nat (List.length xs) - 1)) by (apply Rdiv_lt_0_compat; [lra|apply (IZR_lt 0); lia]).
  apply (proj2 (Rltb_true _ _)) in Hd. rewrite Hd in Hi. injection Hi as <-.
  match goal with |- exists i, searchGuess g ?S x = _ /\ _ => destruct (searchGuess_spec g S x a b) as (i & p & q & E & Hr' & Hp & Hq & Hbt) end;
    cbn [s_n s_xs s_incr btw] in *; try assumption; try lia; try reflexivity.
  exists (Z.to_nat i). rewrite Z2Nat.id by lia. split; [exact E|]. exists p, q.
  rewrite at_toNat in Hp, Hq by lia. replace (Z.to_nat (i + 1)) with (S (Z.to_nat i)) in Hq by lia. auto.
Qed.
Print Assumptions C14_search_any_guess.

Theorem C14_search_brackets : forall xs, (2 <= List.length xs)%nat -> increasing xs ->
  exists s, s_init xs = Some s /\
    (forall x, within xs x -> exists i, search s x = Some (Z.of_nat i) /\ cell xs x i) /\
    (forall x, ~ within xs x -> search s x = None).
Proof.
  intros xs H2 Hinc. destruct (grid_init xs H2 Hinc) as (s & Es & G). exists s. split; [exact Es|]. split.
  - intros x Hx. destruct (go_in _ _ G x Hx) as (i & a & b & Hi & Ha & Hb & Hr). exists i. split; [exact Hi|]. exists a, b. auto.
  - apply (go_out _ _ G).
Qed.
Print Assumptions C14_search_brackets.

Theorem C14_uniform_search_brackets : forall x0 dx n, (2 <= n)%nat -> 0 < dx ->
  (forall x, within (uniform_grid x0 dx n) x -> exists i, search (s_unifInit x0 dx (Z.of_nat n)) x = Some (Z.of_nat i) /\ cell (uniform_grid x0 dx n) x i) /\
  (forall x, ~ within (uniform_grid x0 dx n) x -> search (s_unifInit x0 dx (Z.of_nat n)) x = None).
Proof.
  intros x0 dx n H2 Hd. pose proof (grid_unif x0 dx n H2 Hd) as G. split.
  - intros x Hx. destruct (go_in _ _ G x Hx) as (i & a & b & Hi & Ha & Hb & Hr). exists i. split; [exact Hi|]. exists a, b. auto.
  - apply (go_out _ _ G).
Qed.
Print Assumptions C14_uniform_search_brackets.

(** The splines' search works for both directions, whatever the guess. *)
Theorem C14_spline_search_any_guess : forall (incr : bool) xs ys s x g a b, (if incr then increasing xs else decreasing xs) -> (3 <= List.length xs)%nat ->
  NewSpline xs ys = Some s -> nth_error xs 0 = Some a -> nth_error xs (List.length xs - 1) = Some b -> (a <= x <= b \/ b <= x <= a) ->
  exists i p q, bsearchGuess g s x = Some (Z.of_nat i) /\ nth_error xs i = Some p /\ nth_error xs (S i) = Some q /\ (p <= x <= q \/ q <= x <= p).
Proof.
  intros incr xs ys s x g a b Hm Hn E Ha Hb Hx.
  assert (Hl : List.length ys = List.length xs).
  { unfold NewSpline in E. destruct (Nat.eqb_spec (List.length xs) (List.length ys)); [congruence|discriminate]. }
  destruct (NewSpline_ok incr xs ys Hm Hn Hl) as (s' & M & E' & OK). rewrite E in E'. injection E' as <-.
  pose proof (mono_lt incr xs 0 (List.length xs - 1) a b Hm ltac:(lia) Ha Hb) as D.
  destruct (bsearchGuess_spec g s x a b) as (i & p & q & Ei & Hr & Hp & Hq & Hbt);
    rewrite ?(so_xs _ _ _ _ _ OK), ?(so_incr _ _ _ _ _ OK) in *; try lia.
  - exact Ha.
  - rewrite at_toNat by lia. rewrite <- Hb. f_equal. lia.
  - unfold btw. destruct incr; cbn in D; lra.
  - exists (Z.to_nat i), p, q. rewrite Z2Nat.id by lia. split; [exact Ei|].
    rewrite at_toNat in Hp, Hq by lia. replace (Z.to_nat (i + 1)) with (S (Z.to_nat i)) in Hq by lia.
    repeat split; auto. unfold btw in Hbt. destruct incr; lra.
Qed.
Print Assumptions C14_spline_search_any_guess.

(** Decreasing tables (accepted by the constructors) can never be searched: every query panics, also in range. *)
Theorem C89_decreasing_table_refuted : forall xs s x, (2 <= List.length xs)%nat -> decreasing xs -> s_init xs = Some s -> search s x = None.
Proof.
  intros xs s x H2 Hd Hi. destruct (ends xs H2) as (a & b & Ha & Hb).
  assert (b < a) by (apply (Hd O (List.length xs - 1)%nat a b); [lia|assumption|assumption]).
  apply (search_outside xs s x a b Hi Ha Hb). lra.
Qed.
Print Assumptions C89_decreasing_table_refuted.

Lemma inc3 : increasing [0; 1; 3].
Proof. intros [|[|[|i]]] [|[|[|j]]] a b Hij Ha Hb; cbn in *; try lia; try discriminate; try (destruct i; discriminate); try (destruct j; discriminate); injection Ha as <-; injection Hb as <-; lra. Qed.
Lemma dec3 : decreasing [3; 1; 0].
Proof. intros [|[|[|i]]] [|[|[|j]]] a b Hij Ha Hb; cbn in *; try lia; try discriminate; try (destruct i; discriminate); try (destruct j; discriminate); injection Ha as <-; injection Hb as <-; lra. Qed.
Lemma within3 : within [0; 1; 3] 2.
Proof. exists 0, 3. repeat split; try reflexivity; lra. Qed.
Example C14_nonvacuous : increasing [0; 1; 3] /\ within [0; 1; 3] 2 /\ decreasing [3; 1; 0] /\ (exists s, s_init [3; 1; 0] = Some s) /\
  (forall i, cell [0; 1; 3] 2 i -> i = 1%nat).
Proof.
  split; [exact inc3|]. split; [exact within3|]. split; [exact dec3|]. split; [eexists; reflexivity|].
  intros [|[|[|i]]] (a & b & Ha & Hb & Hr); cbn in *; [|reflexivity|discriminate|destruct i; discriminate].
  injection Ha as <-. injection Hb as <-. lra.
Qed.

(** ** C15. Linear interpolators *)
Theorem C15_linear : forall xs vals, (2 <= List.length xs)%nat -> increasing xs -> List.length vals = List.length xs ->
  exists lin, NewLinear xs vals = Some lin /\ interpolates1 xs vals (LinearEval lin).
Proof.
  intros xs vals H2 Hinc HL. destruct (grid_init xs H2 Hinc) as (s & Es & G). exists {| l_xs := s; l_vals := vals |}. split.
  - unfold NewLinear. rewrite HL, Nat.eqb_refl. cbn [negb]. rewrite Es. reflexivity.
  - apply Linear_interpolates; assumption.
Qed.
Print Assumptions C15_linear.

Theorem C15_uniform_linear : forall x0 dx vals, (2 <= List.length vals)%nat -> 0 < dx ->
  interpolates1 (uniform_grid x0 dx (List.length vals)) vals (LinearEval (NewUniformLinear x0 dx vals)).
Proof.
  intros x0 dx vals H2 Hd. unfold NewUniformLinear. apply Linear_interpolates; [apply grid_unif; assumption|]. rewrite uniform_length. reflexivity.
Qed.
Print Assumptions C15_uniform_linear.

Theorem C15_bilinear : forall xs ys vals, (2 <= List.length xs)%nat -> (2 <= List.length ys)%nat -> increasing xs -> increasing ys ->
  List.length vals = (List.length xs * List.length ys)%nat ->
  exists bi, NewBiLinear xs ys vals = Some bi /\ interpolates2 xs ys vals (BiLinearEval bi).
Proof.
  intros xs ys vals H2 H3 Hix Hiy HL. destruct (grid_init xs H2 Hix) as (sx & Ex & Gx). destruct (grid_init ys H3 Hiy) as (sy & Ey & Gy).
  exists {| b_xs := sx; b_ys := sy; b_vals := vals; b_nx := Z.of_nat (List.length xs) |}. split.
  - unfold NewBiLinear. rewrite Ex, Ey. cbn [bindo]. rewrite HL, Nat.eqb_refl. reflexivity.
  - apply BiLinear_interpolates; assumption.
Qed.
Print Assumptions C15_bilinear.

Theorem C15_uniform_bilinear : forall x0 dx nx y0 dy ny vals, (2 <= nx)%nat -> (2 <= ny)%nat -> 0 < dx -> 0 < dy -> List.length vals = (nx * ny)%nat ->
  exists bi, NewUniformBiLinear x0 dx (Z.of_nat nx) y0 dy (Z.of_nat ny) vals = Some bi /\
    interpolates2 (uniform_grid x0 dx nx) (uniform_grid y0 dy ny) vals (BiLinearEval bi).
Proof.
  intros x0 dx nx y0 dy ny vals H2 H3 Hx Hy HL. eexists. split.
  - unfold NewUniformBiLinear. rewrite HL, Nat2Z.inj_mul, Z.eqb_refl. reflexivity.
  - pose proof (BiLinear_interpolates _ _ _ _ vals (grid_unif x0 dx nx H2 Hx) (grid_unif y0 dy ny H3 Hy)) as H.
    rewrite !uniform_length in H. apply H. exact HL.
Qed.
Print Assumptions C15_uniform_bilinear.

(** TriLinear looks z up in the y table (lines 292 and 308). It interpolates when the two tables are the same.
    Missing from the full C15: z tables that differ from the y table (refuted below). *)
Theorem C90_trilinear_partial : forall xs ys vals, (2 <= List.length xs)%nat -> (2 <= List.length ys)%nat -> increasing xs -> increasing ys ->
  List.length vals = (List.length xs * List.length ys * List.length ys)%nat ->
  exists t, NewTriLinear xs ys ys vals = Some t /\ interpolates3 xs ys ys vals (TriLinearEval t).
Proof.
  intros xs ys vals H2 H3 Hix Hiy HL. destruct (grid_init xs H2 Hix) as (sx & Ex & Gx). destruct (grid_init ys H3 Hiy) as (sy & Ey & Gy).
  eexists. split.
  - unfold NewTriLinear. rewrite Ex, Ey. cbn [bindo]. rewrite HL, Nat.eqb_refl. reflexivity.
  - apply TriLinear_interpolates; assumption.
Qed.
Print Assumptions C90_trilinear_partial.

Theorem C90_uniform_trilinear_partial : forall x0 dx nx y0 dy ny vals, (2 <= nx)%nat -> (2 <= ny)%nat -> 0 < dx -> 0 < dy -> List.length vals = (nx * ny * ny)%nat ->
  exists t, NewUniformTriLinear x0 dx (Z.of_nat nx) y0 dy (Z.of_nat ny) y0 dy (Z.of_nat ny) vals = Some t /\
    interpolates3 (uniform_grid x0 dx nx) (uniform_grid y0 dy ny) (uniform_grid y0 dy ny) vals (TriLinearEval t).
Proof.
  intros x0 dx nx y0 dy ny vals H2 H3 Hx Hy HL. eexists. split.
  - unfold NewUniformTriLinear. rewrite HL, !Nat2Z.inj_mul, Z.eqb_refl. reflexivity.
  - pose proof (TriLinear_interpolates _ _ (s_unifInit y0 dy (Z.of_nat ny)) _ _ vals (grid_unif x0 dx nx H2 Hx) (grid_unif y0 dy ny H3 Hy)) as H.
    rewrite !uniform_length in H. apply H. exact HL.
Qed.
Print Assumptions C90_uniform_trilinear_partial.

(** Any z of the grid outside the y range panics, for all tables and values. *)
Theorem C90_trilinear_refuted : forall xs ys zs vals t x y z, (2 <= List.length ys)%nat -> increasing ys ->
  NewTriLinear xs ys zs vals = Some t -> within xs x -> within ys y -> within zs z -> ~ within ys z -> TriLinearEval t x y z = None.
Proof.
  intros xs ys zs vals t x y z H2 Hiy E Hx Hy Hz Hn. destruct (grid_init ys H2 Hiy) as (sy & Ey & Gy).
  unfold NewTriLinear in E. apply bindo_some in E. destruct E as (sx & _ & E). rewrite Ey in E. cbn [bindo] in E.
  apply bindo_some in E. destruct E as (sz & _ & E). destruct (Nat.eqb _ _); [|discriminate]. injection E as <-.
  unfold TriLinearEval. cbn [t_xs t_ys]. destruct (search sx x); [|reflexivity]. cbn [bindo]. destruct (search sy y); [|reflexivity]. cbn [bindo].
  rewrite (go_out _ _ Gy z Hn). reflexivity.
Qed.
Print Assumptions C90_trilinear_refuted.

Example C15_nonvacuous : exists bi, NewBiLinear [0; 1; 3] [0; 1; 3] (repeat 1 9) = Some bi /\ interpolates2 [0; 1; 3] [0; 1; 3] (repeat 1 9) (BiLinearEval bi).
Proof. apply C15_bilinear; try exact inc3; cbn; lia. Qed.
Example C15_refuted_nonvacuous : exists t, NewTriLinear [0; 1; 3] [0; 1; 3] [0; 5] (repeat 1 18) = Some t /\ within [0; 5] 5 /\ ~ within [0; 1; 3] 5.
Proof.
  eexists. split; [reflexivity|]. split.
  - exists 0, 5. repeat split; try reflexivity; lra.
  - intros (a & b & Ha & Hb & Hr). cbn in Ha, Hb. injection Ha as <-. injection Hb as <-. lra.
Qed.

(** ** C16. Cubic splines *)

(** Tables of at least three strictly increasing abscissae: NewSpline succeeds and there is a natural cubic spline f (with
    derivatives f1, f2) through the table that Eval and Deriv compute at every x of the range; outside, Eval panics. *)
Theorem C16_spline : forall xs ys, (3 <= List.length xs)%nat -> increasing xs -> List.length ys = List.length xs ->
  exists s f f1 f2, NewSpline xs ys = Some s /\ natural_spline xs ys f f1 f2 /\
    (forall x, within xs x -> SplineEval s x = Some (f x) /\ SplineDeriv s x 0 = Some (f x) /\ SplineDeriv s x 1 = Some (f1 x) /\ SplineDeriv s x 2 = Some (f2 x)) /\
    (forall x, ~ within xs x -> SplineEval s x = None) /\
    (forall G lo hi, within xs lo -> within xs hi -> (exists k, nth_error xs k = Some (Rmin lo hi)) ->
       (forall x, Rmin lo hi <= x <= Rmax lo hi -> derivable_pt_lim G x (f x)) -> SplineIntegrate s lo hi = Some (G hi - G lo)).
Proof.
  intros xs ys Hn Hinc Hl. destruct (NewSpline_ok true xs ys Hinc Hn Hl) as (s & M & E & OK).
  exists s, (curve true 0 (mkCells xs (sp_coeffs s))), (curve true 1 (mkCells xs (sp_coeffs s))), (curve true 2 (mkCells xs (sp_coeffs s))).
  split; [exact E|]. split; [apply (curve_natural _ _ _ _ _ OK)|]. split.
  { intros x (a & b & Ha & Hb & Hr). split; [apply (eval_curve _ _ _ _ _ OK x a b Ha Hb); exact Hr|].
    split; [|split]; apply (deriv_curve _ _ _ _ _ OK x a b); auto; exact Hr. }
  split.
  { intros x Hx. destruct (ends_ok _ _ _ _ _ OK) as (a & b & Ha & Hb & _). apply (eval_outside _ _ _ _ _ OK x a b Ha Hb).
    intros Hr. apply Hx. exists a, b. auto. }
  intros G lo hi (a & b & Ha & Hb & Hlo) (a' & b' & Ha' & Hb' & Hhi) Hk HG.
  replace a' with a in * by congruence. replace b' with b in * by congruence.
  apply (Integrate_ok xs ys s M G lo hi a b OK); assumption.
Qed.
Print Assumptions C16_spline.

(** Decreasing tables: Eval everywhere, Deriv strictly inside the range. *)
Theorem C91_decreasing_spline_partial : forall xs ys a b, (3 <= List.length xs)%nat -> decreasing xs -> List.length ys = List.length xs ->
  nth_error xs 0 = Some a -> nth_error xs (List.length xs - 1) = Some b ->
  exists s f f1 f2, NewSpline xs ys = Some s /\ natural_spline xs ys f f1 f2 /\
    (forall x, b <= x <= a -> SplineEval s x = Some (f x)) /\
    (forall x, b < x < a -> SplineDeriv s x 1 = Some (f1 x) /\ SplineDeriv s x 2 = Some (f2 x)) /\
    (forall x, x < b \/ a < x -> SplineEval s x = None).
Proof.
  intros xs ys a b Hn Hdec Hl Ha Hb. destruct (NewSpline_ok false xs ys Hdec Hn Hl) as (s & M & E & OK).
  exists s, (curve false 0 (mkCells xs (sp_coeffs s))), (curve false 1 (mkCells xs (sp_coeffs s))), (curve false 2 (mkCells xs (sp_coeffs s))).
  split; [exact E|]. split; [apply (curve_natural _ _ _ _ _ OK)|]. split; [|split].
  - intros x Hx. apply (eval_curve _ _ _ _ _ OK x a b Ha Hb). exact Hx.
  - intros x Hx. split; apply (deriv_curve _ _ _ _ _ OK x a b); auto; try (cbn; lra); right; split; lra.
  - intros x Hx. apply (eval_outside _ _ _ _ _ OK x a b Ha Hb). cbn. lra.
Qed.
Print Assumptions C91_decreasing_spline_partial.

(** ... but Deriv panics at both ends of every decreasing table, although they are in range. *)
Theorem C91_decreasing_deriv_refuted : forall xs ys s x k, (3 <= List.length xs)%nat -> decreasing xs -> List.length ys = List.length xs ->
  NewSpline xs ys = Some s -> nth_error xs 0 = Some x \/ nth_error xs (List.length xs - 1) = Some x -> SplineDeriv s x k = None.
Proof.
  intros xs ys s x k Hn Hdec Hl E Hx. destruct (NewSpline_ok false xs ys Hdec Hn Hl) as (s' & M & E' & OK). rewrite E in E'. injection E' as <-.
  apply (deriv_end_panics _ _ _ _ _ OK); auto.
Qed.
Print Assumptions C91_decreasing_deriv_refuted.

(** A two-point table passes NewSpline's length check and then panics, for all tables. *)
Theorem C91_two_points_refuted : forall x0 x1 y0 y1, NewSpline [x0; x1] [y0; y1] = None.
Proof. intros. unfold NewSpline. cbn -[Rltb sortedTable]. destruct (sortedTable _ _); reflexivity. Qed.
Print Assumptions C91_two_points_refuted.

(** Integrate from a point inside a cell is wrong: the coefficients are used as if that point were the knot. *)
Lemma inc012 : increasing [0; 1; 2].
Proof. intros [|[|[|i]]] [|[|[|j]]] a b Hij Ha Hb; cbn in *; try lia; try discriminate; try (destruct i; discriminate); try (destruct j; discriminate); injection Ha as <-; injection Hb as <-; lra. Qed.
Theorem C91_integrate_refuted : exists s, NewSpline [0; 1; 2] [0; 1; 0] = Some s /\
  (forall x, 0 <= x <= 1 -> SplineEval s x = Some (- (1 / 2) * x ^ 3 + 3 / 2 * x)) /\
  exists G, (forall x, derivable_pt_lim G x (- (1 / 2) * x ^ 3 + 3 / 2 * x)) /\
    SplineIntegrate s (1 / 2) (3 / 4) <> Some (G (3 / 4) - G (1 / 2)).
Proof.
  destruct (NewSpline_ok true [0; 1; 2] [0; 1; 0] inc012 ltac:(cbn; lia) eq_refl) as (s & M & E & OK). exists s. split; [exact E|].
  assert (HM : exists m, M = [0; m; 0] /\ m = -3).
  { pose proof (so_mlen _ _ _ _ _ OK) as HL. destruct M as [|m0 [|m1 [|m2 [|? ?]]]]; cbn in HL; try lia.
    pose proof (so_m0 _ _ _ _ _ OK) as H0. pose proof (so_mn _ _ _ _ _ OK) as H2. cbn in H0, H2. injection H0 as ->. injection H2 as ->.
    pose proof (so_eq _ _ _ _ _ OK 0%nat 0 1 2 0 1 0 0 m1 0 eq_refl eq_refl eq_refl eq_refl eq_refl eq_refl eq_refl eq_refl eq_refl) as H.
    exists m1. split; [reflexivity|]. lra. }
  destruct HM as (m & HM & Hm).
  assert (Hc : forall i xi c x, nth_error [0; 1; 2] i = Some xi -> nth_error (sp_coeffs s) i = Some c -> i = 0%nat -> poly c 0 (x - xi) = - (1 / 2) * x ^ 3 + 3 / 2 * x).
  { intros i xi c x Hxi Hc ->. rewrite (so_cs _ _ _ _ _ OK), HM in Hc. cbn in Hc. injection Hc as <-. cbn in Hxi. injection Hxi as <-.
    cbn [poly ca cb cc cd]. subst m. field. }
  destruct (nth_ex (sp_coeffs s) 0) as [c0 Hc0]; [rewrite (cs_len _ _ _ _ _ OK); cbn; lia|].
  split.
  - intros x Hx. rewrite (eval_curve _ _ _ _ _ OK x 0 2 eq_refl eq_refl) by (cbn; lra). f_equal.
    rewrite (curve_at _ _ _ _ _ OK 0 0 0 1 c0 x ltac:(lia) eq_refl eq_refl Hc0) by (cbn; lra). apply (Hc 0%nat 0 c0 x eq_refl Hc0 eq_refl).
  - exists (fun x => - (1 / 8) * x * x * x * x + 3 / 4 * x * x). split; [intros x; derive; cbv beta; field|].
    unfold SplineIntegrate. rewrite (proj2 (Rltb_false (3 / 4) (1 / 2))) by lra. unfold integrateUp. cbv zeta.
    rewrite (so_xs _ _ _ _ _ OK), (so_incr _ _ _ _ _ OK).
    change (at_ [0; 1; 2] 0) with (Some 0). change (at_ [0; 1; 2] (Z.of_nat (List.length [0; 1; 2]) - 1)) with (Some 2). cbn [bindo].
    rewrite (proj2 (Rltb_false (1/2) 0)), (proj2 (Rltb_false 2 (1/2))), (proj2 (Rltb_false (3/4) 0)), (proj2 (Rltb_false 2 (3/4))) by lra. cbn [Bool.eqb orb].
    assert (HB : forall x, 0 < x < 1 -> bsearch s x = Some 0%Z).
    { intros x Hx. destruct (bsearch_ok _ _ _ _ _ OK x 0 2 eq_refl eq_refl) as (i & p & q & c & Eb & Hp & Hq & _ & Hbt); [cbn; lra|].
      destruct i as [|[|i]]; [exact Eb| |destruct i as [|[|i]]; discriminate]. exfalso. cbn in Hp, Hq, Hbt. injection Hp as <-. lra. }
    rewrite (HB (1/2)), (HB (3/4)) by lra. cbn [bindo]. change (at_ (sp_coeffs s) 0) with (nth_error (sp_coeffs s) 0). rewrite Hc0. cbn [bindo Z.eqb].
    rewrite (so_cs _ _ _ _ _ OK), HM in Hc0. cbn in Hc0. injection Hc0 as <-. unfold integTerm. cbn [ca cb cc cd]. subst m. intros Habs. injection Habs as Habs. lra.
Qed.
Print Assumptions C91_integrate_refuted.

Example C16_nonvacuous : exists s f f1 f2, NewSpline [0; 1; 3] [5; 2; 7] = Some s /\ natural_spline [0; 1; 3] [5; 2; 7] f f1 f2 /\ SplineEval s 1 = Some 2 /\ within [0; 1; 3] 2.
Proof.
  destruct (C16_spline [0; 1; 3] [5; 2; 7] ltac:(cbn; lia) inc3 eq_refl) as (s & f & f1 & f2 & E & H & Hev & _).
  exists s, f, f1, f2. split; [exact E|]. split; [exact H|]. split; [|exact within3].
  destruct (Hev 1) as [H1 _]; [exists 0, 3; repeat split; try reflexivity; lra|]. rewrite H1. f_equal. apply (ns_table _ _ _ _ _ H 1%nat 1 2); reflexivity.
Qed.

(** ** C17. TriDiag *)
Theorem C17_solves : forall as_ bs cs rs us, TriDiag as_ bs cs rs = Some us -> tri_solution as_ bs cs rs us.
Proof. exact TriDiag_solves. Qed.
Print Assumptions C17_solves.

(** It panics exactly when elimination without pivoting meets a zero pivot, i.e. some leading principal minor is 0. *)
Theorem C17_panics_iff_zero_minor : forall as_ bs cs rs n, List.length as_ = n -> List.length bs = n -> List.length cs = n -> List.length rs = n -> (1 <= n)%nat ->
  TriDiag as_ bs cs rs = None <-> exists k, (1 <= k <= n)%nat /\ leading_minor as_ bs cs k = 0.
Proof. exact TriDiag_fails. Qed.
Print Assumptions C17_panics_iff_zero_minor.

Theorem C17_bad_lengths_panic : forall as_ bs cs rs,
  ~ (List.length as_ = List.length bs /\ List.length as_ = List.length cs /\ List.length as_ = List.length rs) \/ bs = [] -> TriDiag as_ bs cs rs = None.
Proof. exact TriDiag_bad_lengths. Qed.
Print Assumptions C17_bad_lengths_panic.

Theorem C17_dominant_never_panics : forall as_ bs cs rs n, List.length as_ = n -> List.length bs = n -> List.length cs = n -> List.length rs = n -> (1 <= n)%nat ->
  dominant as_ bs cs -> exists us, TriDiag as_ bs cs rs = Some us /\ tri_solution as_ bs cs rs us.
Proof.
  intros as_ bs cs rs n H1 H2 H3 H4 Hn Hd. destruct (TriDiag_dominant as_ bs cs rs n H1 H2 H3 H4 Hn Hd) as [us E].
  exists us. split; [exact E|]. apply TriDiag_solves. exact E.
Qed.
Print Assumptions C17_dominant_never_panics.

Example C17_nonvacuous : dominant [0; 1; 1] [4; 4; 4] [1; 1; 0] /\ exists us, TriDiag [0; 1; 1] [4; 4; 4] [1; 1; 0] [1; 2; 3] = Some us.
Proof.
  assert (H : dominant [0; 1; 1] [4; 4; 4] [1; 1; 0]).
  { intros [|[|[|i]]] Hi; cbn in *; try lia; rewrite ?Rabs_R0, ?(Rabs_right 1), ?(Rabs_right 4) by lra; lra. }
  split; [exact H|]. destruct (C17_dominant_never_panics [0; 1; 1] [4; 4; 4] [1; 1; 0] [1; 2; 3] 3%nat eq_refl eq_refl eq_refl eq_refl ltac:(lia) H) as (us & E & _). eauto.
Qed.

(** ** C41. Cubic interpolators: caches never show, and the table is reproduced. *)
Theorem C41_bicubic_history_independent : forall xs ys vals bi qs bi' x y, NewBiCubic xs ys vals = Some bi -> biRun bi qs = Some bi' ->
  snd (BiCubicEval bi' x y) = snd (BiCubicEval bi x y).
Proof. exact bi_transparent. Qed.
Print Assumptions C41_bicubic_history_independent.

Theorem C41_tricubic_history_independent : forall xs ys zs vals t qs t' x y z, NewTriCubic xs ys zs vals = Some t -> triRun t qs = Some t' ->
  snd (TriCubicEval t' x y z) = snd (TriCubicEval t x y z).
Proof. exact tri_transparent. Qed.
Print Assumptions C41_tricubic_history_independent.

Theorem C41_bicubic_table : forall xs ys vals, (increasing xs \/ decreasing xs) -> (increasing ys \/ decreasing ys) -> (3 <= List.length xs)%nat -> (3 <= List.length ys)%nat ->
  List.length vals = (List.length xs * List.length ys)%nat ->
  exists bi, NewBiCubic xs ys vals = Some bi /\
  forall qs bi' i j a b v, biRun bi qs = Some bi' -> nth_error xs i = Some a -> nth_error ys j = Some b -> nth_error vals (i + List.length xs * j) = Some v ->
    snd (BiCubicEval bi' a b) = Some v.
Proof.
  intros xs ys vals Hx Hy H2 H3 HL.
  assert (Hmx : exists i, mono i xs) by (destruct Hx; [exists true|exists false]; assumption).
  assert (Hmy : exists i, mono i ys) by (destruct Hy; [exists true|exists false]; assumption).
  destruct Hmx as [ix Hmx], Hmy as [iy Hmy]. destruct (bi_nodes ix iy xs ys vals Hmx Hmy H2 H3 HL) as (bi & E & H). exists bi. split; [exact E|].
  intros qs bi' i j a b v HR Ha Hb Hv. rewrite (bi_transparent _ _ _ _ _ _ a b E HR). apply (H i j a b v); assumption.
Qed.
Print Assumptions C41_bicubic_table.

Theorem C41_tricubic_table : forall xs ys zs vals, (increasing xs \/ decreasing xs) -> (increasing ys \/ decreasing ys) -> (increasing zs \/ decreasing zs) ->
  (3 <= List.length xs)%nat -> (3 <= List.length ys)%nat -> (3 <= List.length zs)%nat ->
  List.length vals = (List.length xs * List.length ys * List.length zs)%nat ->
  exists t, NewTriCubic xs ys zs vals = Some t /\
  forall qs t' i j k a b c v, triRun t qs = Some t' -> nth_error xs i = Some a -> nth_error ys j = Some b -> nth_error zs k = Some c ->
    nth_error vals (i + List.length xs * j + List.length xs * List.length ys * k) = Some v -> snd (TriCubicEval t' a b c) = Some v.
Proof.
  intros xs ys zs vals Hx Hy Hz H2 H3 H4 HL.
  assert (Hmx : exists i, mono i xs) by (destruct Hx; [exists true|exists false]; assumption).
  assert (Hmy : exists i, mono i ys) by (destruct Hy; [exists true|exists false]; assumption).
  assert (Hmz : exists i, mono i zs) by (destruct Hz; [exists true|exists false]; assumption).
  destruct Hmx as [ix Hmx], Hmy as [iy Hmy], Hmz as [iz Hmz].
  destruct (tri_nodes ix iy iz xs ys zs vals Hmx Hmy Hmz H2 H3 H4 HL) as (t & E & H). exists t. split; [exact E|].
  intros qs t' i j k a b c v HR Ha Hb Hc Hv. rewrite (tri_transparent _ _ _ _ _ _ _ a b c E HR). apply (H i j k a b c v); assumption.
Qed.
Print Assumptions C41_tricubic_table.

(** A recovered panic poisons the cache: an out-of-range y that panicked the first time returns a value the second time. *)
Theorem C41_after_panic_refuted : forall xs ys vals bi i a y, (increasing xs \/ decreasing xs) -> increasing ys -> (3 <= List.length xs)%nat -> (3 <= List.length ys)%nat ->
  List.length vals = (List.length xs * List.length ys)%nat -> NewBiCubic xs ys vals = Some bi -> nth_error xs i = Some a -> ~ within ys y ->
  snd (BiCubicEval bi a y) = None /\ exists v, snd (BiCubicEval (fst (BiCubicEval bi a y)) a y) = Some v.
Proof.
  intros xs ys vals bi i a y Hx Hy H2 H3 HL E Ha Hny.
  destruct (C41_bicubic_table xs ys vals Hx (or_introl Hy) H2 H3 HL) as (bi2 & E2 & H). rewrite E in E2. injection E2 as <-.
  assert (Hlen : forall k, (k < List.length ys)%nat -> exists v, nth_error vals (i + List.length xs * k) = Some v).
  { intros k Hk. apply nth_ex. rewrite HL. apply idx2; [apply nth_error_Some; congruence|exact Hk]. }
  destruct (nth_ex ys 0) as [y0 Hy0]; [lia|]. destruct (Hlen O ltac:(lia)) as [v Hv].
  assert (HlY : bc_lastY bi = y0 /\ exists l, bc_ySplines bi = l /\ sequence (map (fun xi =>
      bindo (sequence (map (fun yi => nth_error vals (List.length xs * yi + xi)) (seq 0 (List.length ys)))) (NewSpline ys)) (seq 0 (List.length xs))) = Some l).
  { unfold NewBiCubic in E. rewrite HL, Nat.eqb_refl in E. cbn [negb] in E. apply bindo_some in E. destruct E as (l & El & E). rewrite Hy0 in E. cbn [bindo] in E.
    apply bindo_some in E. destruct E as (xv & _ & E). apply bindo_some in E. destruct E as (sx & _ & E). injection E as <-. cbn. split; [reflexivity|]. exists l. split; [reflexivity|exact El]. }
  destruct HlY as (HlY & l & Hl & El).
  assert (Hs0 : exists s0 l', l = s0 :: l' /\ SplineEval s0 y = None).
  { destruct (List.length xs) as [|nx] eqn:Enx; [lia|]. cbn [seq map sequence] in El. apply bindo_some in El. destruct El as (s0 & Es0 & El).
    apply bindo_some in El. destruct El as (l' & _ & El). injection El as <-. exists s0, l'. split; [reflexivity|].
    apply bindo_some in Es0. destruct Es0 as (col & Ec & Es0).
    assert (Hcl : List.length col = List.length ys).
    { unfold NewSpline in Es0. destruct (Nat.eqb_spec (List.length ys) (List.length col)); [congruence|discriminate]. }
    destruct (NewSpline_ok true ys col Hy H3 Hcl) as (s' & M & E' & OK). rewrite Es0 in E'. injection E' as <-.
    destruct (ends_ok _ _ _ _ _ OK) as (p & q & Hp & Hq & _). apply (eval_outside _ _ _ _ _ OK y p q Hp Hq).
    intros Hr. apply Hny. exists p, q. auto. }
  destruct Hs0 as (s0 & l' & -> & Hev).
  assert (Hy0w : within ys y0) by (apply (node_within ys 0 y0 Hy Hy0)).
  destruct (bi_stale xs ys vals bi a y v) as [H1 H4]; auto.
  - rewrite HlY. intros ->. contradiction.
  - rewrite Hl. cbn [evalSplines]. rewrite Hev. reflexivity.
  - rewrite HlY. apply (H [] bi i O a y0 v); auto.
  - split; [exact H1|]. exists v. exact H4.
Qed.
Print Assumptions C41_after_panic_refuted.

Example C41_nonvacuous : exists bi bi', NewBiCubic [0; 1; 3] [0; 1; 3] (repeat 1 9) = Some bi /\ biRun bi [(0, 1); (1, 3); (3, 3)] = Some bi'.
Proof.
  destruct (C41_bicubic_table [0; 1; 3] [0; 1; 3] (repeat 1 9) (or_introl inc3) (or_introl inc3) ltac:(cbn; lia) ltac:(cbn; lia) eq_refl) as (bi & E & H).
  exists bi.
  pose proof (H [] bi 0%nat 1%nat 0 1 1 eq_refl eq_refl eq_refl eq_refl) as E1. destruct (BiCubicEval bi 0 1) as [b1 o1] eqn:B1. cbn in E1. subst o1.
  assert (R1 : biRun bi [(0, 1)] = Some b1) by (cbn [biRun]; rewrite B1; reflexivity).
  pose proof (H _ b1 1%nat 2%nat 1 3 1 R1 eq_refl eq_refl eq_refl) as E2. destruct (BiCubicEval b1 1 3) as [b2 o2] eqn:B2. cbn in E2. subst o2.
  assert (R2 : biRun bi [(0, 1); (1, 3)] = Some b2) by (cbn [biRun]; rewrite B1, B2; reflexivity).
  pose proof (H _ b2 2%nat 2%nat 3 3 1 R2 eq_refl eq_refl eq_refl) as E3. destruct (BiCubicEval b2 3 3) as [b3 o3] eqn:B3. cbn in E3. subst o3.
  exists b3. split; [exact E|]. cbn [biRun]. rewrite B1, B2, B3. reflexivity.
Qed.
