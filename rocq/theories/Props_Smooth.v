(** * Properties C39, C40, C69-C74: smoothing, derivatives and splashback radii of lines of sight. *)
From Coq Require Import Reals Lra Lia ZArith List Bool.
From Verif Require Import SmoothModel SmoothSpec LoopFacts MatModel MatSpec MatProofs MatProofs2 InterpProofs SmoothProofs DerivProofs SavgolProofs SavgolProofs3 SplashProofs RingProofs LosModel LosSpec LosProofs LosProofs6 LosProofs7 LosProofs11.
Import List ListNotations.
Local Open Scope R_scope.

(** ** C39: convolution *)

(** Extension and ZeroPad: every entry is the weighted sum over the continued signal; the old contents of the output do not matter. *)
Theorem C39_convolution : forall k xs b out, (k_center k < length (k_cs k) <= length xs)%nat -> length out = length xs ->
  b = Extension \/ b = ZeroPad ->
  exists out', convolve_at k xs b out = Some out' /\ convolve k xs b = Some out' /\ length out' = length xs /\
    forall i, (i < length xs)%nat -> nth i out' 0 = weighted k (continued b xs) i.
Proof.
  intros k xs b out Hk Lo Hb. assert (Hr : b <> Reflection) by (destruct Hb; congruence).
  destruct (convolve_spec k xs b out Hk Lo ltac:(congruence)) as (o & E & L & H). exists o. split; [exact E|]. split.
  - unfold convolve. rewrite <- E. apply convolve_out; try assumption. unfold zeros. now rewrite repeat_length.
  - split; [exact L|]. intros i Hi. rewrite H by exact Hi. apply weighted_ext. intros j Hj. apply coded_continued.
    + destruct Hb as [->| ->]; auto.
    + intros ->. cbn in Hk. lia.
    + lia.
Qed.

(** Away from the left end every boundary condition is honoured, with the mirror at the last sample. *)
Theorem C39_right_part : forall k xs b out, (k_center k + 1 < length (k_cs k) <= length xs)%nat -> length out = length xs ->
  exists out', convolve_at k xs b out = Some out' /\ length out' = length xs /\
    forall i, (k_center k <= i < length xs)%nat -> nth i out' 0 = weighted k (continued b xs) i.
Proof.
  intros k xs b out Hk Lo. destruct (convolve_spec k xs b out ltac:(lia) Lo ltac:(intros _; lia)) as (o & E & L & H). exists o. split; [exact E|]. split; [exact L|].
  intros i Hi. rewrite H by lia. apply weighted_ext. intros j Hj. apply coded_continued; [right; right; lia| |lia]. intros ->. cbn in Hk. lia.
Qed.

(** A constant signal is multiplied by the sum of the weights, for all boundary conditions but ZeroPad. *)
Theorem C39_constant : forall k v n b, (k_center k + 1 < length (k_cs k) <= n)%nat -> b <> ZeroPad ->
  convolve k (repeat v n) b = Some (repeat (v * sumf (length (k_cs k)) (fun j => nth j (k_cs k) 0)) n).
Proof.
  intros k v n b Hk Hb. unfold convolve. destruct (convolve_spec k (repeat v n) b (zeros (length (repeat v n)))) as (o & -> & L & H).
  - rewrite repeat_length. lia.
  - unfold zeros. now rewrite !repeat_length.
  - intros _. lia.
  - rewrite repeat_length in *. f_equal. set (w := v * _). apply (nth_ext _ _ 0 w); [now rewrite repeat_length|]. intros i Hi. rewrite nth_repeat, H by lia. subst w. rewrite <- (weighted_const k v i).
    apply weighted_ext. intros j Hj. apply coded_const; [lia|exact Hb|lia].
Qed.

(** The Gaussian and top-hat kernels: they exist exactly for odd widths, their weights are positive and add up to 1, so that convolution
    keeps every signal within its bounds. *)
Theorem C39_kernels : forall width sigma dx,
  (width mod 2 = 0 -> gaussian_kernel width sigma dx = None /\ tophat_kernel width = None)%nat /\
  ((width mod 2 = 1)%nat -> forall mk, mk = gaussian_kernel width sigma dx \/ mk = tophat_kernel width ->
    exists k, mk = Some k /\ length (k_cs k) = width /\ k_center k = (width / 2)%nat /\
      (forall j, (j < width)%nat -> 0 < nth j (k_cs k) 0) /\ sumf width (fun j => nth j (k_cs k) 0) = 1 /\
      forall xs lo hi, (width <= length xs)%nat -> (forall x, In x xs -> lo <= x <= hi) ->
      exists out, convolve k xs Extension = Some out /\ length out = length xs /\ forall y, In y out -> lo <= y <= hi).
Proof.
  intros width sigma dx. split.
  - intros H. unfold gaussian_kernel, tophat_kernel. rewrite H. auto.
  - intros Hw mk Hmk.
    assert (Hk : exists k, mk = Some k /\ length (k_cs k) = width /\ k_center k = (width / 2)%nat /\ (forall j, (j < width)%nat -> 0 < nth j (k_cs k) 0) /\ sumf width (fun j => nth j (k_cs k) 0) = 1).
    { assert (Hw0 : (0 < width)%nat) by (destruct width; [discriminate|lia]). destruct Hmk as [->| ->].
      - destruct (gaussian_ok width sigma dx Hw) as (k & s & E & Hs & L & Hc & S1 & H). exists k. split; [exact E|]. split; [exact L|]. split; [exact Hc|]. split; [|exact S1].
        intros j Hj. rewrite H by exact Hj. apply Rdiv_lt_0_compat; [apply exp_pos|exact Hs].
      - destruct (tophat_ok width Hw) as (k & E & L & Hc & H). exists k. split; [exact E|]. split; [exact L|]. split; [exact Hc|]. assert (0 < INR width) by (apply lt_0_INR; exact Hw0). split.
        + intros j Hj. rewrite H by exact Hj. apply Rdiv_lt_0_compat; lra.
        + rewrite (sumf_ext _ _ (fun _ => 1 / INR width)) by (intros j Hj; apply H; exact Hj).
          assert (Hcst : forall n c, sumf n (fun _ => c) = INR n * c) by (intros n c; induction n as [|n IH]; cbn [sumf]; [cbn; ring|rewrite IH, S_INR; ring]).
          rewrite Hcst. field. lra. }
    destruct Hk as (k & E & L & Hc & Hp & S1). exists k. split; [exact E|]. split; [exact L|]. split; [exact Hc|]. split; [exact Hp|]. split; [exact S1|].
    intros xs lo hi Hx Hb. assert (Hd : (width / 2 < width)%nat) by (apply Nat.div_lt; [destruct width; [discriminate|lia]|lia]).
    destruct (C39_convolution k xs Extension (zeros (length xs))) as (o & _ & E2 & Lo & H); [lia|unfold zeros; now rewrite repeat_length|left; reflexivity|].
    exists o. split; [exact E2|]. split; [exact Lo|]. intros y Hy. destruct (In_nth _ _ 0 Hy) as (i & Hi & <-). rewrite H by lia.
    assert (Hx0 : (0 < length xs)%nat) by lia.
    assert (Hnth : forall z, (0 <= z < Z.of_nat (length xs))%Z -> lo <= nth (Z.to_nat z) xs 0 <= hi) by (intros z Hz; apply Hb, nth_In; lia).
    apply weighted_bounds.
    + intros j Hj. left. apply Hp. lia.
    + rewrite L. exact S1.
    + intros z. unfold continued. cbv zeta. destruct (Z.leb_spec 0 z), (Z.ltb_spec z (Z.of_nat (length xs))); cbn [andb]; try (apply Hnth; lia).
      * destruct (Z.ltb_spec z 0); [lia|]. apply Hnth. lia.
      * destruct (Z.ltb_spec z 0); apply Hnth; lia.
      * lia.
Qed.

(** The weights of the Gaussian are in the proportion of the Gaussian at the sample offsets, those of the top hat are equal. *)
Theorem C39_weights : forall width sigma dx, (width mod 2 = 1)%nat ->
  exists g t s, gaussian_kernel width sigma dx = Some g /\ tophat_kernel width = Some t /\ 0 < s /\
    forall i, (i < width)%nat -> nth i (k_cs g) 0 = exp (- ((INR i - INR (width / 2)) * dx) ^ 2 / (2 * sigma ^ 2)) / s /\ nth i (k_cs t) 0 = 1 / INR width.
Proof.
  intros width sigma dx Hw. destruct (gaussian_ok width sigma dx Hw) as (g & s & Eg & Hs & _ & _ & _ & Hg). destruct (tophat_ok width Hw) as (t & Et & _ & _ & Ht).
  exists g, t, s. repeat (split; [assumption|]). intros i Hi. split; [apply Hg|apply Ht]; exact Hi.
Qed.

(** A kernel longer than the data panics. *)
Theorem C39_long_kernel : forall k xs b out, (k_center k < length (k_cs k))%nat -> (length xs < length (k_cs k))%nat -> length out = length xs ->
  convolve_at k xs b out = None.
Proof. exact convolve_long. Qed.

Example C39_nonvacuous :
  let k := mkKernel [1/4; 1/2; 1/4] 1 in (k_center k + 1 < length (k_cs k) <= length [1; 5; 3; 7])%nat /\
  convolve k [1; 5; 3; 7] Extension = Some [1 * (1/4) + 1 * (1/2) + 5 * (1/4); 1 * (1/4) + 5 * (1/2) + 3 * (1/4); 5 * (1/4) + 3 * (1/2) + 7 * (1/4); 3 * (1/4) + 7 * (1/2) + 7 * (1/4)].
Proof. cbv zeta. split; [cbn; lia|]. lazy -[Rplus Rmult Rdiv IZR]. f_equal. repeat (apply (f_equal2 cons); [ring|]). reflexivity. Qed.

(** ** C69: the left end of periodic and mirrored signals *)

(** What the code reads to the left of the data: a periodic signal is read one sample too far to the left, a mirrored one one sample too far
    to the right. *)
Theorem C69_left_end_partial : forall k xs b out, (k_center k + 1 < length (k_cs k) <= length xs)%nat -> length out = length xs -> b = Periodic \/ b = Reflection ->
  exists out', convolve_at k xs b out = Some out' /\ length out' = length xs /\
    forall i, (i < k_center k)%nat -> nth i out' 0 = weighted k (fun z =>
      if (z <? 0)%Z then nth (Z.to_nat (match b with Periodic => Z.of_nat (length xs) - 1 + z | _ => 1 - z end)) xs 0
      else continued b xs z) i.
Proof.
  intros k xs b out Hk Lo Hb. destruct (convolve_spec k xs b out ltac:(lia) Lo ltac:(intros _; lia)) as (o & E & L & H). exists o. split; [exact E|]. split; [exact L|].
  intros i Hi. rewrite H by lia. apply weighted_ext. intros j Hj. destruct (Z.ltb_spec (Z.of_nat i + Z.of_nat j - Z.of_nat (k_center k)) 0).
  - unfold coded. cbv zeta. destruct (Z.ltb_spec (Z.of_nat i + Z.of_nat j - Z.of_nat (k_center k)) 0); [|lia]. destruct Hb as [->| ->]; [reflexivity|]. f_equal. lia.
  - apply coded_continued; [right; right; lia| |lia]. intros ->. cbn in Hk. lia.
Qed.

(** Periodic and mirrored signals are wrong for every kernel with a non-zero first weight and the signal with a single 1 at its last sample
    (periodic) or at the sample next to its mirror (reflection). *)
Theorem C69_periodic_refuted : forall c0 cs c n, c0 <> 0 -> (0 < c)%nat -> (c < length cs)%nat -> (length cs + 1 <= n)%nat -> (forall x, In x cs -> x = 0) ->
  let k := mkKernel (c0 :: cs) c in let xs := repeat 0 (n - c) ++ 1 :: repeat 0 (c - 1) in
  exists out, convolve k xs Periodic = Some out /\ nth 0 out 0 = 0 /\ weighted k (continued Periodic xs) 0 = c0.
Proof.
  intros c0 cs c n Hc0 Hc Hcl Hn Hcs. cbv zeta. set (k := mkKernel (c0 :: cs) c). set (xs := repeat 0 (n - c) ++ 1 :: repeat 0 (c - 1)).
  assert (Lx : length xs = n) by (subst xs; rewrite app_length; cbn [length]; rewrite !repeat_length; lia).
  assert (Hxs : forall i, nth i xs 0 = if (i =? n - c)%nat then 1 else 0).
  { intros i. subst xs. destruct (Nat.lt_ge_cases i (n - c)) as [Hi|Hi].
    - rewrite app_nth1 by (rewrite repeat_length; exact Hi). rewrite nth_repeat. destruct (Nat.eqb_spec i (n - c)); [lia|reflexivity].
    - rewrite app_nth2 by (rewrite repeat_length; exact Hi). rewrite repeat_length. destruct (Nat.eqb_spec i (n - c)) as [->|].
      + rewrite Nat.sub_diag. reflexivity.
      + replace (i - (n - c))%nat with (S (i - (n - c) - 1)) by lia. cbn [nth]. apply nth_repeat. }
  assert (Hw : forall s, weighted k s 0 = c0 * s (- Z.of_nat c)%Z).
  { intros s. unfold weighted. subst k. cbn [k_cs k_center length]. rewrite (sumf_single _ 0).
    - cbn [nth]. do 2 f_equal.
    - lia.
    - intros j Hj Hne. destruct j as [|j]; [lia|]. cbn [nth]. rewrite (Hcs (nth j cs 0)) by (apply nth_In; lia). ring. }
  destruct (C69_left_end_partial k xs Periodic (zeros (length xs))) as (o & E & L & H); [subst k; cbn [k_cs k_center length]; lia|unfold zeros; now rewrite repeat_length|left; reflexivity|].
  exists o. split; [exact E|]. split.
  - rewrite H by (subst k; cbn [k_center]; lia). rewrite Hw. destruct (Z.ltb_spec (- Z.of_nat c) 0); [|lia]. rewrite Hxs, Lx. destruct (Nat.eqb_spec (Z.to_nat (Z.of_nat n - 1 + - Z.of_nat c)) (n - c)); [lia|ring].
  - rewrite Hw. unfold continued. cbv zeta. rewrite Lx. destruct (Z.leb_spec 0 (- Z.of_nat c)); [lia|]. cbn [andb]. rewrite Hxs.
    replace ((- Z.of_nat c) mod Z.of_nat n)%Z with (Z.of_nat n - Z.of_nat c)%Z by (apply Z.mod_unique with (q := (-1)%Z); lia).
    destruct (Nat.eqb_spec (Z.to_nat (Z.of_nat n - Z.of_nat c)) (n - c)); [ring|lia].
Qed.

(** Example for the mirror: 1, 2, 4 mirrored at its first sample has 2 to the left of it, the code uses 4. *)
Theorem C69_reflection_refuted : convolve (mkKernel [1; 0; 0] 1) [1; 2; 4] Reflection = Some [4; 1; 2] /\ continued Reflection [1; 2; 4] (-1) = 2.
Proof. split; [|reflexivity]. lazy -[Rplus Rmult Rdiv IZR]. f_equal. repeat (apply (f_equal2 cons); [ring|]). reflexivity. Qed.

(** BoundaryCondition.Get: right for Extension and ZeroPad everywhere; for Periodic to the right; mirrored signals panic just after their end. *)
Theorem C69_get_partial : forall xs i, xs <> [] ->
  bc_get Extension xs i = Some (continued Extension xs i) /\ bc_get ZeroPad xs i = Some (continued ZeroPad xs i) /\
  ((0 <= i < 2 * Z.of_nat (length xs))%Z -> bc_get Periodic xs i = Some (continued Periodic xs i)).
Proof.
  intros xs i Hx. assert (Hn : (0 < length xs)%nat) by (destruct xs; [congruence|cbn; lia]).
  unfold bc_get, continued. cbv zeta.
  split; [|split].
  - destruct (Z.ltb_spec i 0), (Z.leb_spec 0 i), (Z.leb_spec (Z.of_nat (length xs)) i), (Z.ltb_spec i (Z.of_nat (length xs))); cbn [andb]; try lia; apply at_nth; lia.
  - destruct (Z.ltb_spec i 0), (Z.leb_spec 0 i), (Z.leb_spec (Z.of_nat (length xs)) i), (Z.ltb_spec i (Z.of_nat (length xs))); cbn [andb]; try lia; try reflexivity; apply at_nth; lia.
  - intros Hi. destruct (Z.ltb_spec i 0), (Z.leb_spec 0 i), (Z.leb_spec (Z.of_nat (length xs)) i), (Z.ltb_spec i (Z.of_nat (length xs))); cbn [andb]; try lia; try (apply at_nth; lia).
    rewrite at_nth by lia. f_equal. f_equal. f_equal. apply Z.mod_unique with (q := 1%Z); lia.
Qed.

Theorem C69_get_refuted : forall xs, bc_get Reflection xs (Z.of_nat (length xs)) = None /\
  ((2 <= length xs)%nat -> bc_get Periodic xs (-1) = Some (nth (length xs - 2) xs 0) /\ continued Periodic xs (-1) = nth (length xs - 1) xs 0 /\
     bc_get Reflection xs (-1) = Some (nth 0 xs 0) /\ continued Reflection xs (-1) = nth 1 xs 0).
Proof.
  intros xs. split.
  - unfold bc_get. cbv zeta. destruct (Z.ltb_spec (Z.of_nat (length xs)) 0); [lia|]. destruct (Z.leb_spec (Z.of_nat (length xs)) (Z.of_nat (length xs))); [|lia]. apply at_none. lia.
  - intros Hn. unfold bc_get, continued. cbv zeta. cbn [Z.ltb Z.leb Z.compare andb]. split; [rewrite at_nth by lia; do 2 f_equal; lia|]. split; [|split; [apply at_nth; lia|reflexivity]].
    f_equal. replace ((-1) mod Z.of_nat (length xs))%Z with (Z.of_nat (length xs) - 1)%Z by (apply Z.mod_unique with (q := (-1)%Z); lia). lia.
Qed.

Example C69_nonvacuous : convolve (mkKernel [1; 0; 0] 1) [1; 2; 4] Periodic = Some [2; 1; 2] /\ continued Periodic [1; 2; 4] (-1) = 4.
Proof. split; [|reflexivity]. lazy -[Rplus Rmult Rdiv IZR]. f_equal. repeat (apply (f_equal2 cons); [ring|]). reflexivity. Qed.

(** ** C40: second-order derivatives *)
Theorem C40_second_order : forall p x0 dx n out, (length p <= 3)%nat -> (3 <= n)%nat -> dx <> 0 -> length out = n ->
  exists out', deriv (grid_points x0 dx n) (samples p x0 dx n) 2 out = Some out' /\ length out' = n /\
    forall i, (i < n)%nat -> nth i out' 0 = peval (pderiv p) (x0 + INR i * dx).
Proof.
  intros p x0 dx n out Hp Hn Hdx Lo. destruct (deriv2_ok (grid_points x0 dx n) (samples p x0 dx n) out) as (o & E & L & H); rewrite ?grid_length, ?samples_length; try lia; try congruence.
  exists o. rewrite grid_length in *. split; [exact E|]. split; [exact L|]. intros i Hi. rewrite H by exact Hi. apply d2_exact; assumption.
Qed.

(** The spec's polynomials are those of calculus: pderiv is the derivative. *)
Theorem C40_spec_derivative : forall p x, derivable_pt_lim (peval p) x (peval (pderiv p) x).
Proof.
  induction p as [|c p IH]; intros x.
  - cbn. apply derivable_pt_lim_const.
  - rewrite pderiv_cons. replace (peval p x + x * peval (pderiv p) x) with (0 + (1 * peval p x + x * peval (pderiv p) x)) by ring.
    change (derivable_pt_lim (fct_cte c + (id * peval p))%F x (0 + (1 * peval p x + x * peval (pderiv p) x))).
    apply derivable_pt_lim_plus; [apply derivable_pt_lim_const|]. apply derivable_pt_lim_mult; [apply derivable_pt_lim_id|apply IH].
Qed.

(** Too few samples, or slices of different lengths, panic. *)
Theorem C40_refused : forall xs ys out, (length xs < 3)%nat \/ length ys <> length xs \/ length out <> length xs -> deriv xs ys 2 out = None.
Proof.
  intros xs ys out [H|H]; [now apply deriv2_short|]. unfold deriv. cbv zeta.
  destruct (Nat.eqb_spec (length ys) (length xs)), (Nat.eqb_spec (length out) (length xs)); cbn [negb orb]; try reflexivity. tauto.
Qed.

Example C40_nonvacuous : exists out', deriv (grid_points 1 (1/2) 5) (samples [3; -2; 5] 1 (1/2) 5) 2 (repeat 7 5) = Some out' /\ nth 3 out' 0 = 23.
Proof.
  destruct (C40_second_order [3; -2; 5] 1 (1/2) 5 (repeat 7 5)) as (o & E & _ & H); [cbn; lia|lia|lra|reflexivity|].
  exists o. split; [exact E|]. rewrite H by lia. cbn. field.
Qed.

(** ** C70: fourth-order derivatives *)

(** The two samples at each end are exact for degree 4; all others are 4/3 of the derivative. *)
Theorem C70_fourth_order_partial : forall p x0 dx n out, (length p <= 5)%nat -> (5 <= n)%nat -> dx <> 0 -> length out = n ->
  exists out', deriv (grid_points x0 dx n) (samples p x0 dx n) 4 out = Some out' /\ length out' = n /\
    forall i, (i < n)%nat -> nth i out' 0 = (if (i <? 2)%nat || (n <=? i + 2)%nat then 1 else 4 / 3) * peval (pderiv p) (x0 + INR i * dx).
Proof.
  intros p x0 dx n out Hp Hn Hdx Lo. destruct (deriv4_ok (grid_points x0 dx n) (samples p x0 dx n) out) as (o & E & L & H); rewrite ?grid_length, ?samples_length; try lia; try congruence.
  exists o. rewrite grid_length in *. split; [exact E|]. split; [exact L|]. intros i Hi. rewrite H by exact Hi. apply d4_value_uniform; assumption.
Qed.

(** So the slope of a straight line is wrong at every inner sample of every uniform grid. *)
Theorem C70_interior_refuted : forall a b x0 dx n i, b <> 0 -> (2 <= i)%nat -> (i + 2 < n)%nat -> dx <> 0 ->
  exists out', deriv (grid_points x0 dx n) (samples [a; b] x0 dx n) 4 (repeat 0 n) = Some out' /\ nth i out' 0 = 4 / 3 * b /\ nth i out' 0 <> b.
Proof.
  intros a b x0 dx n i Hb Hi Hin Hdx. destruct (C70_fourth_order_partial [a; b] x0 dx n (repeat 0 n)) as (o & E & _ & H); [cbn; lia|lia|exact Hdx|apply repeat_length|].
  exists o. split; [exact E|]. rewrite H by lia. destruct (Nat.ltb_spec i 2); [lia|]. destruct (Nat.leb_spec n (i + 2)); [lia|]. cbn [orb]. cbn. lra.
Qed.

(** Order 0 copies the abscissas, not the values; the other orders panic. *)
Theorem C70_other_orders : forall xs ys order out, length ys = length xs -> length out = length xs ->
  deriv xs ys 0 out = Some xs /\ (order <> 0 -> order <> 2 -> order <> 4 -> deriv xs ys order out = None)%nat.
Proof.
  intros xs ys order out L1 L2. unfold deriv. cbv zeta. rewrite L1, L2, Nat.eqb_refl. cbn [negb orb Nat.eqb]. split.
  - destruct (loop_inv (fun i (o : list R) => length o = length xs /\ forall j, (j < i)%nat -> nth j o 0 = nth j xs 0) (length xs) (fun i out => do v <- rd xs i; wr out i v) out) as (o & -> & L & H).
    + split; [exact L2|intros; lia].
    + intros i t Hi (Lt & Ht). rewrite (rd_nth xs i 0) by exact Hi. destruct (wr_some t i (nth i xs 0) 0) as (t' & -> & Lt' & Ht'); [lia|]. exists t'. split; [reflexivity|]. split; [lia|].
      intros j Hj. rewrite Ht'. destruct (Nat.eqb_spec j i) as [->|]; [reflexivity|]. apply Ht. lia.
    + f_equal. apply (nth_ext _ _ 0 0); [exact L|]. intros i Hi. apply H. lia.
  - intros H0 H2 H4. destruct (Nat.eqb_spec order 0), (Nat.eqb_spec order 2), (Nat.eqb_spec order 4); congruence || reflexivity.
Qed.

(** On a grid that is not uniform not even constants times x come out right at the ends for order 2. *)
Theorem C70_nonuniform_refuted : exists out, deriv [0; 1; 3] [0; 1; 3] 2 [0; 0; 0] = Some out /\ nth 0 out 0 = 1 / 3.
Proof. eexists. split; [reflexivity|]. cbn. field. Qed.

Example C70_nonvacuous : exists out', deriv (grid_points 0 1 7) (samples [0; 3] 0 1 7) 4 (repeat 0 7) = Some out' /\ nth 3 out' 0 = 4 /\ nth 1 out' 0 = 3.
Proof.
  destruct (C70_fourth_order_partial [0; 3] 0 1 7 (repeat 0 7)) as (o & E & _ & H); [cbn; lia|lia|lra|reflexivity|].
  exists o. split; [exact E|]. rewrite !H by lia. cbn. split; field.
Qed.

(** ** C71: Savitzky-Golay kernels *)
(** Smoothing kernels of every order and width leave polynomials of that degree unchanged wherever the window fits; the kernels of the first
    derivative (any order) and of the second derivative of parabolas return those derivatives. *)
Theorem C71_savgol : forall order width dx p x0 N b, (width mod 2 = 1)%nat -> (order < width <= N)%nat -> dx <> 0 -> (length p <= order + 1)%nat ->
  (exists k out, savgol_kernel order width = Some k /\ length (k_cs k) = width /\ convolve k (samples p x0 dx N) b = Some out /\
     forall i, (width / 2 <= i)%nat -> (i + width / 2 < N)%nat -> nth i out 0 = peval p (x0 + INR i * dx)) /\
  ((1 <= order)%nat -> exists k out, savgol_deriv_kernel dx 1 order width = Some k /\ length (k_cs k) = width /\ convolve k (samples p x0 dx N) b = Some out /\
     forall i, (width / 2 <= i)%nat -> (i + width / 2 < N)%nat -> nth i out 0 = peval (pderiv p) (x0 + INR i * dx)) /\
  (order = 2%nat -> exists k out, savgol_deriv_kernel dx 2 order width = Some k /\ length (k_cs k) = width /\ convolve k (samples p x0 dx N) b = Some out /\
     forall i, (width / 2 <= i)%nat -> (i + width / 2 < N)%nat -> nth i out 0 = peval (pderiv (pderiv p)) (x0 + INR i * dx)).
Proof.
  intros order width dx p x0 N b Hodd Hw Hdx Hp.
  assert (Hww : (width = 2 * (width / 2) + 1)%nat) by (pose proof (Nat.div_mod width 2); lia). set (n := (width / 2)%nat) in *.
  assert (Hconv : forall k, length (k_cs k) = width -> k_center k = n -> exists out, convolve k (samples p x0 dx N) b = Some out /\
     forall i, (n <= i)%nat -> (i + n < N)%nat -> nth i out 0 = weighted k (continued b (samples p x0 dx N)) i).
  { intros k Lk Hc. unfold convolve. destruct (Nat.eq_dec width 1) as [E1|].
    - destruct (convolve_spec k (samples p x0 dx N) b (zeros (length (samples p x0 dx N)))) as (o & -> & L & H); [rewrite samples_length; lia|unfold zeros; apply repeat_length|intros _; lia|].
      exists o. split; [reflexivity|]. intros i H1 H2. rewrite samples_length in *. rewrite H by lia. apply weighted_ext. intros j Hj. apply coded_continued; [right; right; lia| |rewrite samples_length; lia].
      intros E. apply (f_equal (@length R)) in E. rewrite samples_length in E. cbn in E. lia.
    - destruct (C39_right_part k (samples p x0 dx N) b (zeros (length (samples p x0 dx N)))) as (o & E & L & H); [rewrite samples_length; lia|unfold zeros; now rewrite repeat_length|].
      exists o. split; [exact E|]. intros i H1 H2. apply H. rewrite samples_length. lia. }
  assert (Hscale : forall cs f i, length cs = width -> weighted (mkKernel (map (fun c => c * f) cs) n) (continued b (samples p x0 dx N)) i = f * weighted (mkKernel cs n) (continued b (samples p x0 dx N)) i).
  { intros cs f i L. unfold weighted. cbn [k_cs k_center]. rewrite map_length, <- sumf_scal. apply sumf_ext. intros j Hj.
    rewrite (nth_indep _ 0 (0 * f)) by (rewrite map_length; exact Hj). rewrite (map_nth (fun c => c * f)). ring. }
  split; [|split].
  - destruct (savgol_good n order 0) as (cs & E & L & M); [lia|lia|lia|]. unfold savgol_kernel. fold n. rewrite Hodd, E. cbn [Nat.eqb negb]. destruct (Nat.leb_spec width order); [lia|].
    destruct (Hconv (mkKernel cs n)) as (o & Eo & Ho); [cbn [k_cs]; lia|reflexivity|]. exists (mkKernel cs n), o. split; [reflexivity|]. split; [cbn [k_cs]; lia|]. split; [exact Eo|].
    intros i H1 H2. rewrite Ho by assumption. rewrite (weighted_poly n order 0) by (try assumption; lia). rewrite pshift_0. cbn [pow]. ring.
  - intros Ho1. destruct (savgol_good n order 1) as (cs & E & L & M); [lia|lia|lia|]. unfold savgol_deriv_kernel. fold n. rewrite Hodd, E. change (1 =? 1)%nat with true. cbn [negb]. destruct (Nat.ltb_spec order 1); [lia|]. destruct (Nat.leb_spec width order); [lia|].
    set (f := INR (go_factorial 1) / dx ^ 1). assert (Hf : f = / dx) by (subst f; cbn [go_factorial Nat.mul Nat.add INR pow]; field; exact Hdx).
    destruct (Hconv (mkKernel (map (fun c => c * f) cs) n)) as (o & Eo & Ho); [cbn [k_cs]; rewrite map_length; lia|reflexivity|]. eexists _, o. split; [reflexivity|]. split; [cbn [k_cs]; rewrite map_length; lia|]. split; [exact Eo|].
    intros i H1 H2. rewrite Ho, Hscale by (try assumption; lia). rewrite (weighted_poly n order 1) by (try assumption; lia). rewrite pshift_1, Hf. field. exact Hdx.
  - intros ->. destruct (savgol_good n 2 2) as (cs & E & L & M); [lia|lia|lia|]. unfold savgol_deriv_kernel. fold n. rewrite Hodd, E. change (1 =? 1)%nat with true. change (2 <? 2)%nat with false. cbn [negb]. destruct (Nat.leb_spec width 2); [lia|].
    set (f := INR (go_factorial 2) / dx ^ 2). assert (Hf : f = 2 / (dx * dx)) by (subst f; cbn [go_factorial Nat.mul Nat.add INR pow]; field; exact Hdx).
    destruct (Hconv (mkKernel (map (fun c => c * f) cs) n)) as (o & Eo & Ho); [cbn [k_cs]; rewrite map_length; lia|reflexivity|]. eexists _, o. split; [reflexivity|]. split; [cbn [k_cs]; rewrite map_length; lia|]. split; [exact Eo|].
    intros i H1 H2. rewrite Ho, Hscale by (try assumption; lia). rewrite (weighted_poly n 2 2) by (try assumption; lia). rewrite <- pshift_2, Hf. field. exact Hdx.
Qed.

(** Second derivatives from quartic fits are wrong for every width: a parabola comes out as a straight line, x^4 as 2/dx^2 (dx^4 per unit of the grid). *)
Theorem C107_second_derivative_refuted : forall width dx a b c x0 N, (width mod 2 = 1)%nat -> (4 < width < N)%nat -> dx <> 0 ->
  exists k out, savgol_deriv_kernel dx 2 4 width = Some k /\ convolve k (samples [a; b; c] x0 dx N) Extension = Some out /\
    forall i, (width / 2 <= i)%nat -> (i + width / 2 < N)%nat -> nth i out 0 = 0 /\ peval (pderiv (pderiv [a; b; c])) (x0 + INR i * dx) = 2 * c.
Proof.
  intros width dx a b c x0 N Hodd Hw Hdx.
  assert (Hww : (width = 2 * (width / 2) + 1)%nat) by (pose proof (Nat.div_mod width 2); lia). set (n := (width / 2)%nat) in *.
  destruct (savgol_wrong n) as (cs & E & L & M); [lia|]. unfold savgol_deriv_kernel. fold n. rewrite Hodd, E. change (1 =? 1)%nat with true. change (4 <? 2)%nat with false. cbn [negb]. destruct (Nat.leb_spec width 4); [lia|].
  set (f := INR (go_factorial 2) / dx ^ 2). eexists. set (k := mkKernel _ n).
  destruct (C39_convolution k (samples [a; b; c] x0 dx N) Extension (zeros (length (samples [a; b; c] x0 dx N)))) as (o & _ & Eo & _ & Ho); [subst k; cbn [k_cs k_center]; rewrite map_length, samples_length; lia|unfold zeros; now rewrite repeat_length|left; reflexivity|].
  exists o. split; [reflexivity|]. split; [exact Eo|]. intros i H1 H2. split.
  - rewrite Ho by (rewrite samples_length; lia).
    transitivity (f * weighted (mkKernel cs n) (continued Extension (samples [a; b; c] x0 dx N)) i).
    + unfold weighted. subst k. cbn [k_cs k_center]. rewrite map_length, <- sumf_scal. apply sumf_ext. intros j Hj.
      rewrite (nth_indep _ 0 (0 * f)) by (rewrite map_length; exact Hj). rewrite (map_nth (fun c => c * f)). ring.
    + rewrite (weighted_poly n 4 4) by (try assumption; try lia; cbn [length]; lia). rewrite (nth_overflow (pshift _ _)) by (rewrite pshift_length; cbn [length]; lia). ring.
  - cbn [pderiv pderiv_from peval INR]. ring.
Qed.

(** Even widths and widths not above the order are refused, as are derivatives above the order. *)
Theorem C71_refused : forall order dOrder width dx, (width mod 2 = 0 \/ width <= order)%nat ->
  savgol_kernel order width = None /\ savgol_deriv_kernel dx dOrder order width = None.
Proof.
  intros order dOrder width dx H. unfold savgol_kernel, savgol_deriv_kernel. destruct (Nat.eqb_spec (width mod 2) 1); cbn [negb]; [|auto].
  destruct (Nat.leb_spec width order); [destruct (order <? dOrder)%nat; auto|lia].
Qed.

Theorem C71_refused_derivative : forall order dOrder width dx, (order < dOrder)%nat -> savgol_deriv_kernel dx dOrder order width = None.
Proof.
  intros order dOrder width dx H. unfold savgol_deriv_kernel. destruct (width mod 2 =? 1)%nat; cbn [negb]; [|reflexivity]. destruct (Nat.ltb_spec order dOrder); [reflexivity|lia].
Qed.

Example C71_nonvacuous : exists k out, savgol_kernel 4 21 = Some k /\ convolve k (samples [1; 0; 2; 0; 1] 0 1 256) Extension = Some out /\ nth 10 out 0 = 10201.
Proof.
  destruct (C71_savgol 4 21 1 [1; 0; 2; 0; 1] 0 256 Extension) as ((k & o & E & _ & Eo & H) & _); [reflexivity|lia|lra|cbn; lia|].
  exists k, o. split; [exact E|]. split; [exact Eo|]. rewrite H; [cbn [peval INR]; ring|apply Nat.leb_le; vm_compute; reflexivity|apply Nat.ltb_lt; vm_compute; reflexivity].
Qed.

(** ** C72: smoothing of a profile *)
(** With more samples than the window: the densities given are restored; the outputs, whatever they held, are the Savitzky-Golay weighted means of the log-log
    profile and its slope; the kernels kept between calls stay right. A profile whose logarithm is a polynomial of degree up to 4 in the
    logarithm of the radius comes out exactly at all samples half a window away from the ends. *)
Theorem C72_smooth : forall c window x0 dx p N vals derivs, (window mod 2 = 1)%nat -> (4 < window < N)%nat -> dx <> 0 -> (length p <= 5)%nat ->
  consistent c window dx -> length vals = N -> length derivs = N ->
  let rs := map exp (grid_points x0 dx N) in let rhos := map exp (samples p x0 dx N) in
  exists c' vals' derivs', smooth c rs rhos window vals derivs = Some (c', rhos, vals', derivs', true) /\ consistent c' window dx /\
    length vals' = N /\ length derivs' = N /\
    forall i, (window / 2 <= i)%nat -> (i + window / 2 < N)%nat -> nth i vals' 0 = exp (peval p (x0 + INR i * dx)) /\ nth i derivs' 0 = peval (pderiv p) (x0 + INR i * dx).
Proof.
  intros c window x0 dx p N vals derivs Hodd Hw Hdx Hp Hc Lv Ld. cbv zeta.
  assert (Eg : ln (nth 1 (map exp (grid_points x0 dx N)) 0) - ln (nth 0 (map exp (grid_points x0 dx N)) 0) = dx).
  { rewrite !(nth_indep (map exp (grid_points x0 dx N)) 0 (exp 0)) by (rewrite map_length, grid_length; lia). rewrite !map_nth, !ln_exp, !grid_nth by lia. cbn [INR]. ring. }
  destruct (smooth_ok c (map exp (grid_points x0 dx N)) (map exp (samples p x0 dx N)) window vals derivs) as (c' & v' & d' & E & Hc' & Hs); rewrite ?map_length, ?grid_length, ?samples_length; try lia; try assumption.
  { rewrite Eg. exact Hc. }
  rewrite Eg in Hc'. rewrite ln_exp_map in E. exists c', v', d'. split; [exact E|]. split; [exact Hc'|].
  assert (Hl := Hs). destruct Hl as (_ & _ & _ & _ & L1 & L2 & _). rewrite map_length, samples_length in L1, L2. split; [exact L1|]. split; [exact L2|].
  intros i H1 H2. destruct (smoothed_poly window p x0 dx N v' d' Hodd Hw Hdx Hp Hs i H1 H2) as (Ev & Ed). split; [|exact Ed]. rewrite Ev.
  rewrite (nth_indep _ 0 (exp 0)) by (rewrite map_length, samples_length; lia). rewrite map_nth, samples_nth by lia. reflexivity.
Qed.

(** For any positive densities: what is computed, and that the input is restored. *)
Theorem C72_smooth_values : forall c xs ys window vals derivs, (window mod 2 = 1)%nat -> (4 < window < length xs)%nat -> length ys = length xs ->
  Forall (fun y => 0 < y) ys -> consistent c window (ln (nth 1 xs 0) - ln (nth 0 xs 0)) -> length vals = length xs -> length derivs = length xs ->
  exists c' vals' derivs' k kd, smooth c xs ys window vals derivs = Some (c', ys, vals', derivs', true) /\ consistent c' window (ln (nth 1 xs 0) - ln (nth 0 xs 0)) /\
    savgol_kernel 4 window = Some k /\ savgol_deriv_kernel (ln (nth 1 xs 0) - ln (nth 0 xs 0)) 1 4 window = Some kd /\
    length vals' = length xs /\ length derivs' = length xs /\
    forall i, (i < length xs)%nat -> nth i vals' 0 = exp (weighted k (continued Extension (map ln ys)) i) /\ nth i derivs' 0 = weighted kd (continued Extension (map ln ys)) i.
Proof.
  intros c xs ys window vals derivs Hodd Hw L Hpos Hc Lv Ld.
  destruct (smooth_ok c xs ys window vals derivs) as (c' & v' & d' & E & Hc' & k & kd & E1 & E2 & L1 & L2 & H); try assumption; try lia.
  rewrite exp_ln_map in E by exact Hpos. exists c', v', d', k, kd. split; [exact E|]. split; [exact Hc'|]. split; [exact E1|]. split; [exact E2|]. rewrite L in *. auto.
Qed.

(** The kernels are kept under the window alone: smoothing a second profile whose bins have another width returns slopes scaled by the ratio of the widths. *)
Theorem C108_stale_spacing_refuted : forall window x0 dx dx' p N vals derivs, (window mod 2 = 1)%nat -> (4 < window < N)%nat -> dx <> 0 -> dx' <> 0 -> (length p <= 5)%nat ->
  length vals = N -> length derivs = N ->
  exists c1 v1 d1 c2 v2 d2 r2, smooth [] (map exp (grid_points x0 dx N)) (map exp (samples p x0 dx N)) window vals derivs = Some (c1, map exp (samples p x0 dx N), v1, d1, true) /\
    smooth c1 (map exp (grid_points x0 dx' N)) (map exp (samples p x0 dx' N)) window vals derivs = Some (c2, r2, v2, d2, true) /\
    forall i, (window / 2 <= i)%nat -> (i + window / 2 < N)%nat -> nth i d2 0 = dx' / dx * peval (pderiv p) (x0 + INR i * dx').
Proof.
  intros window x0 dx dx' p N vals derivs Hodd Hw Hdx Hdx' Hp Lv Ld.
  assert (Eg : forall dx, ln (nth 1 (map exp (grid_points x0 dx N)) 0) - ln (nth 0 (map exp (grid_points x0 dx N)) 0) = dx).
  { intros d. rewrite !(nth_indep (map exp (grid_points x0 d N)) 0 (exp 0)) by (rewrite map_length, grid_length; lia). rewrite !map_nth, !ln_exp, !grid_nth by lia. cbn [INR]. ring. }
  assert (Hww : (window = 2 * (window / 2) + 1)%nat) by (pose proof (Nat.div_mod window 2); lia).
  destruct (savgol_good (window / 2) 4 0) as (cs & Ecs & Lcs & Mcs); [lia|lia|lia|]. destruct (savgol_good (window / 2) 4 1) as (cd & Ecd & Lcd & Mcd); [lia|lia|lia|].
  set (n := (window / 2)%nat) in *. set (f := INR (go_factorial 1) / dx ^ 1). assert (Hf : f = / dx) by (subst f; cbn [go_factorial Nat.mul Nat.add INR pow]; field; exact Hdx).
  assert (E1 : savgol_kernel 4 window = Some (mkKernel cs n)).
  { unfold savgol_kernel. fold n. rewrite Hodd, Ecs. change (1 =? 1)%nat with true. cbn [negb]. destruct (Nat.leb_spec window 4); [lia|reflexivity]. }
  assert (E2 : savgol_deriv_kernel dx 1 4 window = Some (mkKernel (map (fun c => c * f) cd) n)).
  { unfold savgol_deriv_kernel. fold n. rewrite Hodd, Ecd. change (1 =? 1)%nat with true. change (4 <? 1)%nat with false. cbn [negb]. destruct (Nat.leb_spec window 4); [lia|reflexivity]. }
  set (k := mkKernel cs n) in *. set (kd := mkKernel (map (fun c => c * f) cd) n) in *. set (c1 := [(window, (k, kd))]).
  assert (Hsm : forall c dx0, get_kernels c window dx0 = Some (c1, k, kd) -> exists v d,
     smooth c (map exp (grid_points x0 dx0 N)) (map exp (samples p x0 dx0 N)) window vals derivs = Some (c1, map exp (samples p x0 dx0 N), v, d, true) /\
     forall i, (i < N)%nat -> nth i d 0 = weighted kd (continued Extension (samples p x0 dx0 N)) i).
  { intros c d0 Ek. unfold smooth. rewrite !map_length, grid_length, samples_length, Nat.eqb_refl. cbn [negb]. destruct (Nat.leb_spec N window); [lia|].
    rewrite (rd_nth _ 1 0), (rd_nth _ 0 0) by (rewrite map_length, grid_length; lia). cbv zeta. rewrite Eg, Ek, ln_exp_map.
    destruct (C39_convolution k (samples p x0 d0 N) Extension vals) as (v & -> & _ & _ & _); [rewrite samples_length; subst k; cbn [k_cs k_center]; lia|rewrite samples_length; exact Lv|left; reflexivity|].
    destruct (C39_convolution kd (samples p x0 d0 N) Extension derivs) as (d & -> & _ & _ & Hd); [rewrite samples_length; subst kd; cbn [k_cs k_center]; rewrite map_length; lia|rewrite samples_length; exact Ld|left; reflexivity|].
    eexists _, d. split; [reflexivity|]. rewrite samples_length in Hd. exact Hd. }
  destruct (Hsm [] dx) as (v1 & d1 & S1 & _). { unfold get_kernels. cbn [cached]. rewrite E1, E2. reflexivity. }
  destruct (Hsm c1 dx') as (v2 & d2 & S2 & H2). { unfold get_kernels. subst c1. cbn [cached]. rewrite Nat.eqb_refl. reflexivity. }
  exists c1, v1, d1, c1, v2, d2, (map exp (samples p x0 dx' N)). split; [exact S1|]. split; [exact S2|]. intros i Hi1 Hi2. rewrite H2 by lia.
  transitivity (f * weighted (mkKernel cd n) (continued Extension (samples p x0 dx' N)) i).
  { unfold weighted. subst kd. cbn [k_cs k_center]. rewrite map_length, <- sumf_scal. apply sumf_ext. intros j Hj.
    rewrite (nth_indep _ 0 (0 * f)) by (rewrite map_length; exact Hj). rewrite (map_nth (fun c => c * f)). ring. }
  rewrite (weighted_poly n 4 1) by (try assumption; lia). rewrite pshift_1, Hf. field. exact Hdx.
Qed.

(** No more samples than the window: nothing is computed and nothing changed. A window that is even or at most 4 panics unless its kernels are already there. *)
Theorem C72_refused : forall c xs ys window vals derivs, length xs = length ys ->
  ((length xs <= window)%nat -> smooth c xs ys window vals derivs = Some (c, ys, vals, derivs, false)) /\
  ((window < length xs)%nat -> cached c window = None -> (window mod 2 = 0 \/ window <= 4)%nat -> smooth c xs ys window vals derivs = None).
Proof.
  intros c xs ys window vals derivs L. unfold smooth. rewrite L, Nat.eqb_refl. cbn [negb]. split.
  - intros H. destruct (Nat.leb_spec (length ys) window); [reflexivity|lia].
  - intros H Hc Hw. destruct (Nat.leb_spec (length ys) window); [reflexivity||lia|].
    destruct (rd xs 1), (rd xs 0); try reflexivity. cbv zeta. unfold get_kernels. rewrite Hc. destruct (C71_refused 4 1 window 0 Hw) as (-> & _). reflexivity.
Qed.

Example C72_nonvacuous : consistent [] 21 (1/100) /\ exists c' r' v' d', smooth [] (map exp (grid_points 0 (1/100) 256)) (map exp (samples [1; -2] 0 (1/100) 256)) 21 (zeros 256) (zeros 256) = Some (c', r', v', d', true) /\ nth 100 d' 0 = -2.
Proof.
  split; [intros k kd H; discriminate|]. destruct (C72_smooth [] 21 0 (1/100) [1; -2] 256 (zeros 256) (zeros 256)) as (c' & v' & d' & E & _ & _ & _ & H); [reflexivity|lia|lra|cbn; lia|intros k kd Hk; discriminate|unfold zeros; apply repeat_length|unfold zeros; apply repeat_length|].
  exists c', (map exp (samples [1; -2] 0 (1/100) 256)), v', d'. split; [exact E|]. destruct (H 100%nat) as (_ & ->); [apply Nat.leb_le; vm_compute; reflexivity|apply Nat.ltb_lt; vm_compute; reflexivity|]. cbn [pderiv pderiv_from peval INR]. ring.
Qed.

(** ** C73: SplashbackRadius *)
(** The radius returned is that of the candidate with the steepest slope (the innermost of equally steep ones); ok is false exactly if there is no candidate. *)
Theorem C73_splashback_radius : forall rs rhos derivs dLim, length rhos = length rs -> length derivs = length rs ->
  exists r ok, splashback_radius rs rhos derivs dLim = Some (r, ok) /\
    (ok = true <-> exists j, candidate (length rs) rhos derivs dLim j) /\ (ok = false -> r = 0) /\
    (ok = true -> exists a, candidate (length rs) rhos derivs dLim a /\ r = nth a rs 0 /\
       forall j, candidate (length rs) rhos derivs dLim j -> nth a derivs 0 <= nth j derivs 0 /\ ((j < a)%nat -> nth a derivs 0 < nth j derivs 0)).
Proof.
  intros rs rhos derivs dLim L1 L2. destruct (splashback_ok rs rhos derivs dLim L1 L2) as (r & ok & E & Hno & Hyes). exists r, ok. split; [exact E|]. split; [|split; [|exact Hyes]].
  - split; [intros ->; destruct (Hyes eq_refl) as (a & Ha & _); eauto|]. intros (j & Hj). destruct ok; [reflexivity|]. destruct (Hno eq_refl) as (_ & H). elim (H j Hj).
  - intros ->. apply Hno. reflexivity.
Qed.

(** Profiles and slopes of different lengths panic. *)
Theorem C73_lengths : forall rs rhos derivs dLim, length rhos <> length derivs -> splashback_radius rs rhos derivs dLim = None.
Proof. intros rs rhos derivs dLim H. unfold splashback_radius. destruct (Nat.eqb_spec (length rhos) (length derivs)); [contradiction|reflexivity]. Qed.

Example C73_nonvacuous : let rs := [1; 2; 3; 4; 5] in let rhos := [9; 8; 6; 7; 1] in let derivs := [-1; -3; -6; -9; -1] in
  candidate (length rs) rhos derivs (-5) 2 -> False.
Proof. cbn. intros (_ & _ & _ & H & _). cbn in H. lra. Qed.

Example C73_nonvacuous2 : let rs := [1; 2; 3; 4; 5] in let rhos := [9; 8; 6; 7; 1] in let derivs := [-1; -3; -6; -2; -1] in
  candidate (length rs) rhos derivs (-5) 2 /\ exists r ok, splashback_radius rs rhos derivs (-5) = Some (r, ok) /\ ok = true /\ r = 3.
Proof.
  cbv zeta. set (rs := [1; 2; 3; 4; 5]). set (rhos := [9; 8; 6; 7; 1]). set (derivs := [-1; -3; -6; -2; -1]).
  assert (Hc : candidate (length rs) rhos derivs (-5) 2).
  { unfold candidate, rs, rhos, derivs. cbn [length nth Nat.add Nat.sub]. repeat split; try lia; try lra. intros [|[|j]] Hj; [cbn [nth]; lra|cbn [nth]; lra|lia]. }
  split; [exact Hc|]. destruct (C73_splashback_radius rs rhos derivs (-5) eq_refl eq_refl) as (r & ok & E & Hok & _ & Hyes). exists r, ok. split; [exact E|].
  assert (Ho : ok = true) by (apply Hok; eauto). split; [exact Ho|]. destruct (Hyes Ho) as (a & Ha & -> & Hmin). destruct Ha as (A1 & A2 & A3 & A4 & A5 & A6).
  unfold rs, rhos, derivs in *. cbn [length] in A2.
  destruct a as [|[|[|[|a]]]]; cbn [nth Nat.add Nat.sub] in *; try lra; try lia.
Qed.

(** ** C74: rings *)
(** Splashback, whatever the buffer and the kernels kept from earlier rings: each line of sight has the radius of SplashbackRadius on its smoothed profile,
    its angle, and its point in the plane and in space; the result does not depend on what the buffer held, except for the coordinates of lines
    of sight without a splashback radius. *)
Theorem C74_ring : forall c r h ring window dLim rhos n bins, h_n h = n -> h_bins h = bins -> (window mod 2 = 1)%nat -> (4 < window < bins)%nat ->
  consistent c window ((ln (h_rMax h) - ln (h_rMin h)) / INR bins) -> sized r n bins ->
  (forall i buf, (i < n)%nat -> length buf = bins -> get_rhos h ring i buf = Some (rhos i) /\ length (rhos i) = bins) ->
  (forall px py, exists v, plane_to_volume h ring px py = Some v) ->
  exists c' r', rb_splashback c r h ring window dLim = Some (c', r') /\ consistent c' window ((ln (h_rMax h) - ln (h_rMin h)) / INR bins) /\ sized r' n bins /\
    forall i, (i < n)%nat -> line_result h ring window dLim (rhos i) r r' i.
Proof. intros c r h ring window dLim rhos n bins Hn Hb Hodd Hw Hc Hs Hr Hp. apply (rb_splashback_ok h ring window n bins dLim rhos); assumption. Qed.

(** Clear returns a buffer to its initial state; so after Clear nothing of earlier halos is left. *)
Theorem C74_clear : forall r n bins, sized r n bins -> rb_clear r = Some (rb_init n bins) /\ sized (rb_init n bins) n bins.
Proof. intros r n bins H. split; [now apply rb_clear_ok|apply rb_init_sized]. Qed.

(** With no more bins than the smoothing window no line of sight has a radius. *)
Theorem C74_narrow : forall c r h ring window dLim n bins, sized r n bins -> h_n h = n -> h_bins h = bins -> (bins <= window)%nat ->
  (forall i buf, (i < n)%nat -> length buf = bins -> exists rhos, get_rhos h ring i buf = Some rhos /\ length rhos = bins) ->
  exists r', rb_splashback c r h ring window dLim = Some (c, r') /\ sized r' n bins /\ forall i, (i < n)%nat -> nth i (rb_oks r') true = false.
Proof. intros. now apply rb_splashback_narrow. Qed.

(** OkPlaneCoords, OkPolarCoords: the entries with Oks, in order. *)
Theorem C74_ok_coords : forall oks xs ys, length xs = length oks -> length ys = length oks ->
  ok_pairs oks xs ys = Some (map (fun i => (nth i xs 0, nth i ys 0)) (filter (fun i => nth i oks false) (seq 0 (length oks)))).
Proof.
  induction oks as [|ok oks IH]; intros xs ys Lx Ly; [reflexivity|]. destruct xs as [|x xs]; [discriminate|]. destruct ys as [|y ys]; [discriminate|].
  cbn [length] in *. cbn [ok_pairs seq filter nth]. rewrite IH by congruence. f_equal.
  assert (E : map (fun i => (nth i xs 0, nth i ys 0)) (filter (fun i => nth i oks false) (seq 0 (length oks))) =
     map (fun i => (nth i (x :: xs) 0, nth i (y :: ys) 0)) (filter (fun i => nth i (ok :: oks) false) (seq 1 (length oks)))).
  { rewrite <- seq_shift. generalize (seq 0 (length oks)) as l. induction l as [|a l IHl]; [reflexivity|]. cbn [filter map nth]. destruct (nth a oks false); cbn [map nth]; now rewrite IHl. }
  rewrite E. destruct ok; reflexivity.
Qed.

(** The hypotheses of C74_ring hold for every ring of every halo that was initialised and given any spheres, so the property holds for these. *)
Theorem C74_reachable : forall norms o rMin rMax bins n rho0 h0 balls h ring c r window dLim,
  Forall (fun v : vec3 => dot3 v v = 1) norms -> (0 < n)%nat -> 0 < rMin < rMax -> (window mod 2 = 1)%nat -> (4 < window < bins)%nat ->
  halo_init norms o rMin rMax bins n rho0 = Some h0 -> halo_inserts h0 balls = Some h -> (ring < length norms)%nat ->
  consistent c window ((ln rMax - ln rMin) / INR bins) -> sized r n bins ->
  exists c' r', rb_splashback c r h ring window dLim = Some (c', r') /\ consistent c' window ((ln rMax - ln rMin) / INR bins) /\ sized r' n bins /\
    forall i, (i < n)%nat -> exists rhos, get_rhos h ring i (zeros bins) = Some rhos /\ length rhos = bins /\ line_result h ring window dLim rhos r r' i.
Proof.
  intros norms o rMin rMax bins n rho0 h0 balls h ring c r window dLim Hu Hn Hr Hodd Hw E0 E1 Hring Hc Hs.
  destruct (halo_init_good norms o rMin rMax bins n rho0 ltac:(lia) Hn Hr Hu) as (h' & E0' & (G & Girot) & F1 & F2 & F3 & F4 & F5 & F6 & F7 & F8 & F9).
  assert (h' = h0) by congruence. subst h'.
  destruct (halo_inserts_spec balls h0 G) as (profs' & E1' & L1 & G1 & _). assert (Hh : h = with_profs h0 profs') by congruence. clear E1'.
  assert (Hfields : h_n h = n /\ h_bins h = bins /\ h_rMin h = rMin /\ h_rMax h = rMax) by (subst h; cbn [with_profs h_n h_bins h_rMin h_rMax]; tauto).
  destruct Hfields as (En & Eb & Emin & Emax).
  assert (Hgr : forall i, (i < n)%nat -> exists rhos, forall buf, length buf = bins -> get_rhos h ring i buf = Some rhos /\ length rhos = bins).
  { intros i Hi. destruct (nth_error (h_profs h) ring) as [p|] eqn:Ep.
    2: { apply nth_error_None in Ep. subst h. cbn [with_profs h_profs] in Ep. rewrite L1, (gh_profs _ G), <- (gh_norms _ G), F1 in Ep. lia. }
    assert (Gp : good p /\ p_n p = n /\ p_bins p = bins).
    { rewrite <- Hh in G1. destruct (gh_prof _ G1 ring p Ep) as (A & B & C & _). rewrite En in B. rewrite Eb in C. auto. }
    destruct Gp as (Gp & Epn & Epb).
    exists (map (fun j => let v := rowsum (p_derivs p) (i * bins) (S j) in if Rltb v (h_defaultRho h) then h_defaultRho h else v) (seq 0 bins)).
    intros buf Lb. split; [|now rewrite map_length, seq_length]. unfold get_rhos, rd. rewrite Ep.
    destruct (ring_retrieve_spec p i buf Gp ltac:(lia) ltac:(lia)) as (out & -> & Lo & Ho & _). f_equal.
    apply (nth_ext _ _ (if Rltb 0 (h_defaultRho h) then h_defaultRho h else 0) 0); [rewrite !map_length, seq_length; lia|].
    intros j Hj. rewrite map_length in Hj. rewrite (map_nth (fun v => if Rltb v (h_defaultRho h) then h_defaultRho h else v)).
    set (g := fun j => let v := rowsum (p_derivs p) (i * bins) (S j) in if Rltb v (h_defaultRho h) then h_defaultRho h else v).
    rewrite (nth_indep (map g (seq 0 bins)) 0 (g O)) by (rewrite map_length, seq_length; lia). rewrite (map_nth g), seq_nth by lia. cbn [Nat.add]. unfold g. rewrite Ho, Epb by lia. reflexivity. }
  assert (Hfun : exists rhos : nat -> list R, forall i buf, (i < n)%nat -> length buf = bins -> get_rhos h ring i buf = Some (rhos i) /\ length (rhos i) = bins).
  { exists (fun i => match get_rhos h ring i (zeros bins) with Some l => l | None => [] end). intros i buf Hi Lb.
    destruct (Hgr i Hi) as (rhos & Hrhos). destruct (Hrhos (zeros bins)) as (-> & _); [unfold zeros; apply repeat_length|]. apply Hrhos. exact Lb. }
  destruct Hfun as (rhos & Hrhos).
  destruct (C74_ring c r h ring window dLim rhos n bins En Eb Hodd Hw) as (c' & r' & E & Hc' & Hs' & H).
  - rewrite Emin, Emax. exact Hc.
  - exact Hs.
  - exact Hrhos.
  - intros px py. destruct (nth_error norms ring) as [norm|] eqn:En1; [|apply nth_error_None in En1; lia].
    destruct (Girot ring norm) as (irot & Ei & Eu); [rewrite F1; exact En1|].
    assert (Ei' : rd (h_irots h) ring = Some irot) by (subst h; exact Ei). unfold plane_to_volume. rewrite Ei'.
    unfold euler_between in Eu. destruct (spherical_angles zaxis), (spherical_angles norm). apply (euler_total _ _ _ _ _ Eu).
  - exists c', r'. rewrite Emin, Emax in Hc'. split; [exact E|]. split; [exact Hc'|]. split; [exact Hs'|]. intros i Hi. exists (rhos i).
    destruct (Hrhos i (zeros bins) Hi) as (A & B); [unfold zeros; apply repeat_length|]. auto.
Qed.

Example C74_nonvacuous : exists h c' r', halo_init [(0, 0, 1)] (0, 0, 0) 1 32 32 4 1 = Some h /\ rb_splashback [] (rb_init 4 32) h 0 21 (-5) = Some (c', r').
Proof.
  destruct (halo_init_good [(0, 0, 1)] (0, 0, 0) 1 32 32 4 1) as (h & E & _); [lia|lia|lra|repeat constructor; unfold dot3; lra|].
  destruct (C74_reachable [(0, 0, 1)] (0, 0, 0) 1 32 32 4 1 h [] h 0 [] (rb_init 4 32) 21 (-5)) as (c' & r' & E' & _).
  - repeat constructor; unfold dot3; lra.
  - lia.
  - lra.
  - reflexivity.
  - lia.
  - exact E.
  - reflexivity.
  - cbn; lia.
  - intros k kd H; discriminate.
  - apply rb_init_sized.
  - exists h, c', r'. auto.
Qed.

Print Assumptions C39_convolution.
Print Assumptions C39_right_part.
Print Assumptions C39_constant.
Print Assumptions C39_kernels.
Print Assumptions C39_weights.
Print Assumptions C39_long_kernel.
Print Assumptions C69_left_end_partial.
Print Assumptions C69_periodic_refuted.
Print Assumptions C69_reflection_refuted.
Print Assumptions C69_get_partial.
Print Assumptions C69_get_refuted.
Print Assumptions C40_second_order.
Print Assumptions C40_spec_derivative.
Print Assumptions C40_refused.
Print Assumptions C70_fourth_order_partial.
Print Assumptions C70_interior_refuted.
Print Assumptions C70_other_orders.
Print Assumptions C70_nonuniform_refuted.
Print Assumptions C71_savgol.
Print Assumptions C107_second_derivative_refuted.
Print Assumptions C71_refused.
Print Assumptions C71_refused_derivative.
Print Assumptions C72_smooth.
Print Assumptions C72_smooth_values.
Print Assumptions C108_stale_spacing_refuted.
Print Assumptions C72_refused.
Print Assumptions C73_splashback_radius.
Print Assumptions C73_lengths.
Print Assumptions C74_ring.
Print Assumptions C74_clear.
Print Assumptions C74_narrow.
Print Assumptions C74_ok_coords.
Print Assumptions C74_reachable.
