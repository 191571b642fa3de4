(** * C36, C52, C53, C54, C55: Penna-Dines shells and shell statistics. *)
From Coq Require Import Lia Arith Lra Permutation.
From Verif Require Import ShellModel LoopFacts ShellProofs ShellProofs2 InterpProofs.
Import List ListNotations.
Local Open Scope R_scope.

(** ** C36 *)
(** findOrder: p for 2*p*p coefficients with p >= 1, a panic for every other number. *)
Theorem C36_find_order : forall (coeffs : list R),
  (forall p, (1 <= p)%nat -> length coeffs = (2 * p * p)%nat -> find_order coeffs = Ok p) /\
  ((forall p, (1 <= p)%nat -> length coeffs <> (2 * p * p)%nat) -> find_order coeffs = Panic).
Proof.
  intros coeffs. unfold find_order.
  pose proof (find_order_loop_spec (length coeffs) (S (length coeffs)) 1 (le_n _) ltac:(lia) ltac:(intros; lia)) as H.
  change (List.length coeffs) with (length coeffs).
  destruct (find_order_loop (S (length coeffs)) 1 (length coeffs)) as [q| |].
  - destruct H as [H1 H2]. split; [intros p Hp E; f_equal; nia|]. intros Hn. exfalso. now apply (Hn q).
  - easy.
  - split; [|easy]. intros p Hp E. exfalso. now apply (H p).
Qed.
Print Assumptions C36_find_order.

Definition rsum (l : list R) : R := fold_right Rplus 0 l.
Lemma bsum_rsum n f : bsum n f = rsum (map f (seq 0 n)).
Proof.
  induction n as [|n IH]; [reflexivity|]. cbn [bsum]. rewrite IH, seq_S, map_app. unfold rsum.
  rewrite fold_right_app. cbn [map fold_right Nat.add]. rewrite Rplus_0_r. generalize (map f (seq 0 n)) as l. clear.
  intros l. induction l as [|a l IH]; cbn [fold_right]; [lra|]. rewrite <- IH. ring.
Qed.

(** The fit and the shell agree on the basis and its order: the matrix the fit solves with has, in row m of the column of a
    point in direction (phi, th), the m-th function of the shell: for any coefficients cs the combination of the column
    with cs is the radius that PennaFunc(cs) has in that direction. *)
Theorem C36_same_basis : forall (pts : list (R * R * R)) (cs : list R) (I J K : nat),
  (forall p, In p pts -> let '(phi, th, r) := p in 0 < r /\ 0 < th < PI) -> length cs = (I * J * K)%nat ->
  exists M, penna_matrix (map (fun p => let '(phi, th, r) := p in cartesian phi th r) pts) I J K = Some M /\
    length M = (I * J * K * length pts)%nat /\
    forall n phi th r, nth_error pts n = Some (phi, th, r) ->
      penna_func cs I J K phi th =
        Some (rsum (map (fun m => nth m cs 0 * nth (m * length pts + n) M 0) (seq 0 (I * J * K)))).
Proof.
  intros pts cs I J K Hp Hcs.
  set (ps := map (fun p => let '(phi, th, r) := p in cartesian phi th r) pts).
  destruct (penna_matrix_spec ps I J K) as (M & E & HL & HM). exists M. split; [exact E|].
  assert (Hlen : length ps = length pts) by (unfold ps; apply map_length).
  split; [now rewrite HL, Hlen|]. intros n phi th r Hn.
  pose proof (nth_error_In _ _ Hn) as Hin. specialize (Hp _ Hin). cbn in Hp. destruct Hp as [Hr Ht].
  assert (Hlt : (n < length pts)%nat) by (apply nth_error_Some; congruence).
  assert (Hpn : nth n ps (0, 0, 0) = cartesian phi th r).
  { unfold ps. apply nth_error_nth. rewrite nth_error_map, Hn. reflexivity. }
  rewrite penna_func_sum by lia. rewrite bsum_rsum. do 2 f_equal. apply map_ext_in. intros m Hm. apply in_seq in Hm.
  rewrite <- Hlen. rewrite (HM m n) by lia. cbv zeta. rewrite Hpn, penna_trig_cartesian by easy. reflexivity.
Qed.
Print Assumptions C36_same_basis.

(** In the other direction, a shell with the coefficients of one basis function alone: the constant shell. *)
Example C36_nonvacuous : find_order (repeat 0 18) = Ok 3%nat /\ find_order (repeat 0 17) = Panic /\
  forall phi th, penna_func [5; 0] 1 1 2 phi th = Some 5.
Proof.
  split; [reflexivity|]. split; [reflexivity|]. intros phi th. unfold penna_func. cbn. f_equal. ring.
Qed.

(** ** C52 *)
(** The point in direction (phi, th) at distance r is reported inside exactly if r is less than the radius of the shell in
    that direction, for every shell that gives the same radius to two pairs of angles of the same direction. *)
Theorem C52_contains : forall (s : Shell) (phi th r : R),
  (forall phi th phi' th', cartesian phi th 1 = cartesian phi' th' 1 -> s phi th = s phi' th') ->
  0 < r -> 0 <= th <= PI ->
  let '(x, y, z) := cartesian phi th r in contains s x y z = true <-> r < s phi th.
Proof.
  intros s phi th r Hd Hr Ht. pose proof (contains_direction s phi th r Hd Hr Ht) as H.
  destruct (cartesian phi th r) as [[x y] z]. rewrite H. destruct (Rltb_spec r (s phi th)); split; easy.
Qed.
Print Assumptions C52_contains.

(** Penna-Dines shells are such shells. *)
Theorem C52_penna_contains : forall (cs : list R) (I J K : nat) (phi th r rs : R),
  0 < r -> 0 <= th <= PI -> penna_func cs I J K phi th = Some rs ->
  let s := fun phi th => match penna_func cs I J K phi th with Some v => v | None => 0 end in
  let '(x, y, z) := cartesian phi th r in contains s x y z = true <-> r < rs.
Proof.
  intros cs I J K phi th r rs Hr Ht E s. pose proof (C52_contains s phi th r) as H.
  assert (Hd : forall phi th phi' th', cartesian phi th 1 = cartesian phi' th' 1 -> s phi th = s phi' th').
  { intros p t p' t' Ec. unfold s. now rewrite (penna_direction cs I J K _ _ _ _ Ec). }
  specialize (H Hd Hr Ht). destruct (cartesian phi th r) as [[x y] z]. rewrite H. unfold s. now rewrite E.
Qed.
Print Assumptions C52_penna_contains.

(** M_sp: with bounds that really bound the (non-negative) shell, the fast test is containment. *)
Theorem C101_mass_test_partial : forall (s : Shell) (rLow rHigh phi th r : R),
  (forall phi th phi' th', cartesian phi th 1 = cartesian phi' th' 1 -> s phi th = s phi' th') ->
  0 <= rLow -> (forall phi th, rLow <= s phi th <= rHigh) -> 0 < r -> 0 <= th <= PI ->
  let '(x, y, z) := cartesian phi th r in mass_inside s rLow rHigh x y z = true <-> r < s phi th.
Proof.
  intros s rLow rHigh phi th r Hd H0 Hb Hr Ht. pose proof (C52_contains s phi th r Hd Hr Ht) as H.
  destruct (cartesian phi th r) as [[x y] z]. now rewrite mass_inside_ok.
Qed.
Print Assumptions C101_mass_test_partial.

(** The bounds used are those of the sampled directions only (rangeSp): with bounds from a sample that missed the low
    part of the shell, a particle outside the shell is counted. *)
Theorem C101_mass_test_refuted : exists (s : Shell) (a0 : R * R) (angles : list (R * R)) (x y z : R),
  let '(rLow, rHigh) := radial_range s a0 angles in
  0 <= rLow /\ mass_inside s rLow rHigh x y z = true /\ contains s x y z = false.
Proof.
  exists (fun phi th => if Rltb 1 phi then 3 else 1), (2, 1), [(2, 1); (3, 1)], 2, 0, 0.
  unfold radial_range. cbn [fold_left fst snd].
  destruct (Rltb_spec 1 2); [|lra]. destruct (Rltb_spec 1 3); [|lra]. destruct (Rltb_spec 3 3); [lra|].
  cbn [fst snd]. destruct (Rltb_spec 3 3); [lra|]. cbv iota. split; [lra|]. assert (Er : sqrt (2 * 2 + 0 * 0 + 0 * 0) = 2) by (replace (2 * 2 + 0 * 0 + 0 * 0) with (2 * 2) by ring; apply sqrt_square; lra).
  split.
  - unfold mass_inside. cbv zeta. destruct (Rltb_spec (2 * 2 + 0 * 0 + 0 * 0) (3 * 3)); [reflexivity|lra].
  - unfold contains. cbv zeta. rewrite Er. unfold atan2. destruct (Rltb_spec 0 2); [|lra].
    replace (0 / 2) with 0 by field. rewrite atan_0. destruct (Rltb_spec 1 0); [lra|].
    destruct (Rltb_spec 2 1); [lra|easy].
Qed.
Print Assumptions C101_mass_test_refuted.

(** Shell particles: with a width w >= 0 a particle is kept if it is closer than w * R to the shell along its direction,
    provided w * R is at most the smallest radius of the shell; with w < 0 if it is inside the shell. *)
Theorem C101_shell_particles_partial : forall (s : Shell) (Rad rLow rHigh width phi th r : R),
  (forall phi th phi' th', cartesian phi th 1 = cartesian phi' th' 1 -> s phi th = s phi' th') ->
  0 <= Rad -> 0 <= rLow -> (forall phi th, rLow <= s phi th <= rHigh) -> 0 < r -> 0 <= th <= PI ->
  let '(x, y, z) := cartesian phi th r in
  (0 <= width -> Rad * width <= rLow ->
     (shell_keep s Rad rLow rHigh width x y z = true <-> Rabs (r - s phi th) < Rad * width)) /\
  (width < 0 -> (shell_keep s Rad rLow rHigh width x y z = true <-> r < s phi th)).
Proof.
  intros s Rad rLow rHigh width phi th r Hd HR HL Hb Hr Ht.
  pose proof (C52_contains s phi th r Hd Hr Ht) as H. pose proof (contains_angles phi th r Hr Ht) as Ha.
  destruct (cartesian phi th r) as [[x y] z]. destruct Ha as [E1 E2]. split.
  - intros Hw Hdl. pose proof (shell_keep_ok s Rad rLow rHigh width x y z HR Hw Hdl Hb) as Hk. cbv zeta in Hk.
    rewrite Hk, E1. now rewrite (Hd _ _ _ _ E2).
  - intros Hw. rewrite shell_keep_neg; [exact H|easy| |easy]. pose proof (Hb 0 0). lra.
Qed.
Print Assumptions C101_shell_particles_partial.

(** With a wider band, particles on the shell itself are left out, because the square of a negative lower bound is used. *)
Theorem C101_shell_particles_refuted : exists (s : Shell) (Rad rLow rHigh width x y z : R),
  0 <= Rad /\ 0 <= width /\ 0 <= rLow /\ (forall phi th, rLow <= s phi th <= rHigh) /\
  (let r := sqrt (x * x + y * y + z * z) in r = s (atan2 y x) (acos (z / r)) /\ 0 < Rad * width) /\
  shell_keep s Rad rLow rHigh width x y z = false.
Proof.
  exists (fun _ _ => 1), 1, 1, 1, 3, 1, 0, 0. split; [lra|]. split; [lra|]. split; [lra|]. split; [intros; lra|].
  split.
  - cbv zeta. split; [|lra]. replace (1 * 1 + 0 * 0 + 0 * 0) with (1 * 1) by ring. apply sqrt_square. lra.
  - unfold shell_keep. cbv zeta. destruct (Rltb_spec 3 0); [lra|].
    destruct (Rltb_spec ((1 - 1 * 3) * (1 - 1 * 3)) (1 * 1 + 0 * 0 + 0 * 0)); [lra|]. reflexivity.
Qed.
Print Assumptions C101_shell_particles_refuted.

Example C52_nonvacuous : (forall phi th, 1 <= (fun _ _ : R => 2) phi th <= 3) /\ mass_inside (fun _ _ => 2) 1 3 1 1 0 = true.
Proof.
  split; [intros; lra|]. rewrite (mass_inside_ok (fun _ _ => 2) 1 3); [|lra|intros; lra].
  unfold contains. cbv zeta. destruct (Rltb_spec (sqrt (1 * 1 + 1 * 1 + 0 * 0)) 2) as [|H]; [easy|].
  exfalso. apply H. apply sqrt_lt_sq; lra.
Qed.

(** ** C53 *)
(** Whatever directions are drawn (at least one), the volume lies between those of the inscribed and circumscribed
    spheres and the mean radius between their radii, so both are exact for a sphere; and RadialRange is exactly the range
    of the radii in the drawn directions. *)
Theorem C53_monte_carlo : forall (s : Shell) (m M : R) (a0 : R * R) (angles : list (R * R)),
  angles <> [] -> 0 <= m -> (forall phi th, m <= s phi th <= M) ->
  4 / 3 * PI * m ^ 3 <= volume s angles <= 4 / 3 * PI * M ^ 3 /\
  m <= mean_radius s angles <= M /\
  let '(low, high) := radial_range s a0 angles in
  (forall a, In a (a0 :: angles) -> low <= s (fst a) (snd a) <= high) /\
  (exists a, In a (a0 :: angles) /\ low = s (fst a) (snd a)) /\
  (exists a, In a (a0 :: angles) /\ high = s (fst a) (snd a)).
Proof.
  intros s m M a0 angles Hne Hm Hb. split; [now apply volume_bounds|]. split.
  - apply (mean_bounds (fun a => s (fst a) (snd a))); [easy|]. intros a. apply Hb.
  - apply radial_range_spec.
Qed.
Print Assumptions C53_monte_carlo.

Theorem C53_sphere : forall (c : R) (angles : list (R * R)), angles <> [] -> 0 <= c ->
  volume (fun _ _ => c) angles = 4 / 3 * PI * c ^ 3 /\ mean_radius (fun _ _ => c) angles = c.
Proof.
  intros c angles Hne Hc.
  destruct (C53_monte_carlo (fun _ _ => c) c c (0, 0) angles Hne Hc ltac:(intros; lra)) as ([H1 H2] & [H3 H4] & _). split; lra.
Qed.
Print Assumptions C53_sphere.

(** R_sp is meant to be the radius of the sphere with the volume of the shell. It is that radius to the power 0.99999. *)
Theorem C102_radius_partial : forall r, 0 < r -> volume_radius (4 / 3 * PI * r ^ 3) = Rpower r (99999 / 100000).
Proof.
  intros r Hr. unfold volume_radius. pose proof PI_RGT_0.
  replace (4 / 3 * PI * r ^ 3 / (PI * 4 / 3)) with (Rpower r (INR 3)).
  - rewrite Rpower_mult. f_equal. cbn [INR]. lra.
  - rewrite Rpower_pow by easy. field. lra.
Qed.
Print Assumptions C102_radius_partial.

Theorem C102_radius_refuted : exists r, 0 < r /\ volume_radius (4 / 3 * PI * r ^ 3) <> r.
Proof.
  exists 2. split; [lra|]. rewrite C102_radius_partial by lra. intros E.
  assert (Rpower 2 (99999 / 100000) < Rpower 2 1) by (apply Rpower_lt; lra).
  rewrite Rpower_1 in H by lra. lra.
Qed.
Print Assumptions C102_radius_refuted.

(** DiffVolume, "the volume of the space between two shells", of two concentric spheres. *)
Theorem C102_diff_volume_refuted : exists c1 c2, 0 < c2 < c1 /\ forall angles, angles <> [] ->
  diff_volume (fun _ _ => c1) (fun _ _ => c2) angles <> 4 / 3 * PI * c1 ^ 3 - 4 / 3 * PI * c2 ^ 3.
Proof.
  exists 2, 1. split; [lra|]. intros angles Hne E. unfold diff_volume in E. cbv zeta in E.
  destruct (mean_bounds (fun _ => Rabs (2 - 1) * ((2 + 1) / 2) * ((2 + 1) / 2)) (9 / 4) (9 / 4) angles Hne) as [H1 H2].
  { intros _. rewrite Rabs_pos_eq by lra. lra. }
  set (q := fold_left _ _ _ / _) in *. pose proof PI_RGT_0. cbn [pow] in E. nra.
Qed.
Print Assumptions C102_diff_volume_refuted.

(** MaxDiff is the largest difference of radius over the drawn directions. *)
Theorem C53_max_diff : forall (s1 s2 : Shell) (angles : list (R * R)), angles <> [] ->
  (forall a, In a angles -> Rabs (s1 (fst a) (snd a) - s2 (fst a) (snd a)) <= max_diff s1 s2 angles) /\
  (exists a, In a angles /\ max_diff s1 s2 angles = Rabs (s1 (fst a) (snd a) - s2 (fst a) (snd a))).
Proof.
  intros s1 s2 angles Hne. unfold max_diff. set (d := fun a => Rabs (s1 (fst a) (snd a) - s2 (fst a) (snd a))).
  assert (Hd : forall a, 0 <= d a) by (intros; apply Rabs_pos).
  match goal with |- context [fold_left ?f _ _] => set (step := f) end.
  assert (H : forall l seen v, 0 <= v -> (forall a, In a seen -> d a <= v) ->
     ((exists a, In a seen /\ v = d a) \/ v = 0) ->
     let v' := fold_left step l v in 0 <= v' /\
     (forall a, In a (seen ++ l) -> d a <= v') /\ ((exists a, In a (seen ++ l) /\ v' = d a) \/ v' = 0)).
  { induction l as [|a l IH]; intros seen v Hv H1 H2; cbn [fold_left]; cbv zeta; [rewrite app_nil_r; easy|].
    replace (seen ++ a :: l) with ((seen ++ [a]) ++ l) by now rewrite <- app_assoc.
    assert (Es : step v a = if Rltb v (d a) then d a else v) by reflexivity. rewrite Es. clear Es.
    destruct (Rltb_spec v (d a)) as [Hlt|Hge]; apply IH.
    - apply Hd.
    - intros b Hb. apply in_app_or in Hb. destruct Hb as [Hb|[<-|[]]]; [specialize (H1 b Hb); lra|lra].
    - left. exists a. split; [apply in_or_app; right; now left|easy].
    - easy.
    - intros b Hb. apply in_app_or in Hb. destruct Hb as [Hb|[<-|[]]]; [now apply H1|lra].
    - destruct H2 as [(b & Hb & E)|E]; [left; exists b; split; [apply in_or_app; now left|easy]|now right]. }
  destruct (H angles [] 0 (Rle_refl _) ltac:(easy) (or_intror eq_refl)) as (H0 & H1 & H2). cbn [app] in *.
  split; [exact H1|]. destruct H2 as [H2|H2]; [exact H2|]. destruct angles as [|a l]; [easy|].
  exists a. split; [now left|]. specialize (H1 a (or_introl eq_refl)). rewrite H2 in *.
  change (0 = d a). specialize (Hd a). lra.
Qed.
Print Assumptions C53_max_diff.

Example C53_nonvacuous : volume (fun _ _ => 2) [(0, 1); (1, 2)] = 4 / 3 * PI * 8.
Proof. destruct (C53_sphere 2 [(0, 1); (1, 2)]) as [-> _]; [discriminate|lra|]. cbn [pow]. ring. Qed.

(** ** C54 *)
(** trisort: x, y and z in decreasing order, and which of them is the largest. *)
Theorem C54_trisort_partial : forall x y z : R, x <> y ->
  let '(a, b, c, i) := trisort x y z in
  Permutation [a; b; c] [x; y; z] /\ c <= b <= a /\ nth i [x; y; z] 0 = a.
Proof.
  intros x y z Hne. unfold trisort.
  destruct (Rltb_spec y x), (Rltb_spec z x), (Rltb_spec x y), (Rltb_spec z y); cbn [andb];
    try lra;
    (match goal with |- context [Rltb ?a ?b] => destruct (Rltb_spec a b) end);
    (split; [|split; [lra|reflexivity]]);
    first [reflexivity | (apply perm_skip; apply perm_swap)
      | (etransitivity; [apply perm_swap|]; apply perm_skip; first [reflexivity|apply perm_swap]) | idtac].
  all: try (symmetry; etransitivity; [apply perm_skip; apply perm_swap|]; etransitivity; [apply perm_swap|]; apply perm_skip; first [reflexivity|apply perm_swap]).
  all: try (symmetry; etransitivity; [apply perm_swap|]; etransitivity; [apply perm_skip; apply perm_swap|]; first [reflexivity|apply perm_swap|etransitivity; [apply perm_swap|]; first [reflexivity | apply perm_skip, perm_swap]]).
Qed.
Print Assumptions C54_trisort_partial.

(** With two equal largest values in the first two places the smallest is returned first. *)
Theorem C54_trisort_refuted : exists x y z, let '(a, b, c, i) := trisort x y z in a < b.
Proof.
  exists 2, 2, 1. unfold trisort. destruct (Rltb_spec 2 2); [lra|]. cbn [andb].
  destruct (Rltb_spec 2 2); [lra|]. lra.
Qed.
Print Assumptions C54_trisort_refuted.

Example C54_nonvacuous : trisort 1 3 2 = (3, 2, 1, 1%nat).
Proof.
  unfold trisort. destruct (Rltb_spec 3 1); [lra|]. destruct (Rltb_spec 1 3); [|lra]. destruct (Rltb_spec 2 3); [|lra]. cbn [andb].
  destruct (Rltb_spec 1 2); [easy|lra].
Qed.

(** ** C55 *)
Lemma Rtrunc_ge x i : (Z.of_nat i <= Rtrunc x)%Z <-> (match i with O => -1 < x | _ => INR i <= x end).
Proof.
  rewrite INR_IZR_INZ. unfold Rtrunc. destruct (Rle_dec 0 x) as [H|H].
  - pose proof (Rtrunc_pos x H) as [H0 [H1 H2]]. unfold Rtrunc in *. destruct (Rle_dec 0 x); [|lra].
    destruct i as [|i]; [split; [lra|intros; cbn; lia]|]. split.
    + intros Hle. apply IZR_le in Hle. lra.
    + intros Hle. assert (Hlt : IZR (Z.of_nat (S i)) < IZR (Int_part x + 1)) by (rewrite plus_IZR; lra).
      apply lt_IZR in Hlt. lia.
  - pose proof (Rtrunc_pos (- x) ltac:(lra)) as [H0 [H1 H2]]. unfold Rtrunc in *. destruct (Rle_dec 0 (- x)); [|lra].
    destruct i as [|i].
    + cbn [Z.of_nat]. split; intros Hx.
      * assert (E : Int_part (- x) = 0%Z) by lia. rewrite E in *. lra.
      * assert (Hlt : IZR (Int_part (- x)) < IZR 1) by lra. apply lt_IZR in Hlt. lia.
    + split; [lia|]. intros Hx. exfalso. assert (Hp : IZR 0 <= IZR (Z.of_nat (S i))) by (apply IZR_le; lia). lra.
Qed.

Lemma skipn_counts (f : R -> Z) bins lrs ns : length ns = bins ->
  (forall i, (i < bins)%nat -> nth i ns O = count (fun lr => (f lr =? Z.of_nat i)%Z) lrs) ->
  forall d i, (i + d = bins)%nat ->
  list_sum (skipn i ns) = count (fun lr => (Z.of_nat i <=? f lr)%Z && (f lr <? Z.of_nat bins)%Z) lrs.
Proof.
  intros HL Hns. induction d as [|d IH]; intros i Hi.
  - rewrite skipn_all2 by lia. cbn [list_sum fold_right]. symmetry. clear - Hi. induction lrs as [|a l IHl]; [reflexivity|].
    rewrite count_cons, IHl. destruct (Z.leb_spec (Z.of_nat i) (f a)), (Z.ltb_spec (f a) (Z.of_nat bins)); cbn [andb]; lia.
  - rewrite (skipn_nth i ns O) by lia. change (list_sum (nth i ns O :: skipn (S i) ns)) with (nth i ns O + list_sum (skipn (S i) ns))%nat.
    rewrite (IH (S i)) by lia. rewrite Hns by lia. clear - Hi. induction lrs as [|a l IHl]; [reflexivity|].
    rewrite !count_cons, <- IHl.
    destruct (Z.eqb_spec (f a) (Z.of_nat i)), (Z.leb_spec (Z.of_nat (S i)) (f a)), (Z.leb_spec (Z.of_nat i) (f a)),
      (Z.ltb_spec (f a) (Z.of_nat bins)); cbn [andb]; lia.
Qed.

(** A sampled log radius counts for bin i if it is at or above the lower edge of the bin (for the first bin: above the edge
    one bin lower) and below the upper end of the last one. *)
Definition counts_for (lrMin lrMax dlr : R) (i : nat) (lr : R) : bool :=
  (if (i =? 0)%nat then Rltb (lrMin - dlr) lr else Rleb (lrMin + INR i * dlr) lr) && Rltb lr lrMax.

(** Of the drawn directions whose radius is within the range of the profile, AngularFractionProfile reports for each bin the
    fraction whose radius is at or above the bin; so the profile starts at 1 and never increases. *)
Theorem C55_angular_fraction : forall (lrs : list R) (bins : nat) (lrMin lrMax : R),
  (1 <= bins)%nat -> lrMin < lrMax ->
  let dlr := (lrMax - lrMin) / INR bins in
  let cnt := fun i => length (filter (counts_for lrMin lrMax dlr i) lrs) in
  (1 <= cnt O)%nat ->
  exists fs, angular_fraction lrs bins lrMin lrMax = Some fs /\ length fs = bins /\
    (forall i, (i < bins)%nat -> nth i fs 0 = INR (cnt i) / INR (cnt O)) /\
    nth 0 fs 0 = 1 /\ forall i, (S i < bins)%nat -> 0 <= nth (S i) fs 0 <= nth i fs 0.
Proof.
  intros lrs bins lrMin lrMax Hb Hlt dlr cnt Hc.
  assert (Hbpos : 0 < INR bins) by (apply lt_0_INR; lia).
  assert (Hd : 0 < dlr) by (unfold dlr; apply Rdiv_lt_0_compat; lra).
  assert (Hmax : lrMin + INR bins * dlr = lrMax) by (unfold dlr; field; lra).
  unfold angular_fraction. cbv zeta. fold dlr.
  destruct (hist_spec lrMin dlr bins lrs) as (ns & E & HL & Hns). cbv zeta in E. rewrite E.
  destruct (cumsum_spec ns) as (ns' & E' & HL' & Hns'). rewrite HL in E', HL', Hns'. rewrite E'.
  assert (Hcnt : forall i, (i < bins)%nat -> nth i ns' O = cnt i).
  { intros i Hi. rewrite Hns' by easy. rewrite (skipn_counts (bin_of lrMin dlr) bins lrs ns HL Hns (bins - i)) by lia.
    unfold count, cnt. f_equal. apply filter_ext. intros lr. unfold counts_for.
    set (q := (lr - lrMin) / dlr). assert (Eq : lr = lrMin + q * dlr) by (unfold q; field; lra).
    change (bin_of lrMin dlr lr) with (Rtrunc q).
    pose proof (Rtrunc_ge q i) as H1. pose proof (Rtrunc_ge q bins) as H2.
    f_equal.
    - destruct (Z.leb_spec (Z.of_nat i) (Rtrunc q)) as [Hle|Hgt].
      + symmetry. destruct i as [|i]; cbn [Nat.eqb].
        * destruct (Rltb_spec (lrMin - dlr) lr) as [|Hn]; [easy|]. exfalso. apply Hn. apply H1 in Hle. nra.
        * destruct (Rleb_spec (lrMin + INR (S i) * dlr) lr) as [|Hn]; [easy|]. exfalso. apply Hn. apply H1 in Hle. rewrite Eq. nra.
      + symmetry. destruct i as [|i]; cbn [Nat.eqb].
        * destruct (Rltb_spec (lrMin - dlr) lr) as [Hy|]; [|easy]. exfalso.
          assert (-1 < q) by nra. apply H1 in H. lia.
        * destruct (Rleb_spec (lrMin + INR (S i) * dlr) lr) as [Hy|]; [|easy]. exfalso.
          assert (INR (S i) <= q) by nra. apply H1 in H. lia.
    - destruct bins as [|b]; [lia|].
      destruct (Z.ltb_spec (Rtrunc q) (Z.of_nat (S b))) as [Hl|Hg], (Rltb_spec lr lrMax) as [Hy|Hn]; try easy; exfalso.
      + assert (INR (S b) <= q) by nra. apply H2 in H. lia.
      + apply H2 in Hg. nra. }
  destruct ns' as [|n0 rest] eqn:En; [cbn in HL'; lia|]. rewrite <- En in *.
  assert (H0 : n0 = cnt O) by (rewrite <- Hcnt by lia; now rewrite En).
  eexists. split; [reflexivity|]. split; [now rewrite map_length|].
  assert (Hfs : forall i, (i < bins)%nat -> nth i (map (fun n => INR n / INR n0) ns') 0 = INR (cnt i) / INR (cnt O)).
  { intros i Hi. rewrite (nth_indep _ 0 (INR O / INR n0)) by (rewrite map_length; lia).
    rewrite (map_nth (fun n => INR n / INR n0)). now rewrite Hcnt, H0. }
  assert (Hc0 : 0 < INR (cnt O)) by (apply lt_0_INR; lia).
  split; [exact Hfs|]. split; [rewrite Hfs by lia; field; lra|].
  intros i Hi. rewrite !Hfs by lia. split.
  - apply Rmult_le_pos; [apply pos_INR|]. apply Rlt_le, Rinv_0_lt_compat. lra.
  - apply Rmult_le_compat_r; [apply Rlt_le, Rinv_0_lt_compat; lra|]. apply le_INR. unfold cnt.
    clear - Hd. induction lrs as [|a l IH]; [cbn; lia|]. cbn [filter].
    assert (Himp : counts_for lrMin lrMax dlr (S i) a = true -> counts_for lrMin lrMax dlr i a = true).
    { unfold counts_for. cbn [Nat.eqb]. destruct (Rleb_spec (lrMin + INR (S i) * dlr) a) as [H|]; [|discriminate].
      cbn [andb]. intros ->. rewrite Bool.andb_true_r. rewrite S_INR in H. pose proof (pos_INR i).
      destruct (Nat.eqb_spec i 0) as [->|].
      - cbn [INR] in *. destruct (Rltb_spec (lrMin - dlr) a); [easy|lra].
      - destruct (Rleb_spec (lrMin + INR i * dlr) a); [easy|nra]. }
    destruct (counts_for lrMin lrMax dlr (S i) a), (counts_for lrMin lrMax dlr i a); cbn [length]; first [lia|discriminate (Himp eq_refl)].
Qed.
Print Assumptions C55_angular_fraction.

(** The documented meaning, "the percentage of lines of sight at a given radius which are inside the shell", is not what is
    reported when the shell leaves the range of the profile: one of the two directions drawn has its shell above every bin,
    but in the second bin the fraction is 0. *)
Theorem C103_angular_fraction_refuted : exists lrs fs,
  angular_fraction lrs 2 0 1 = Some fs /\ nth 1 fs 0 = 0 /\
  length (filter (Rleb 1) lrs) = 1%nat /\ length lrs = 2%nat.
Proof.
  exists [1 / 4; 5].
  assert (Hc : length (filter (counts_for 0 1 ((1 - 0) / INR 2) 0) [1 / 4; 5]) = 1%nat).
  { cbn [filter]. unfold counts_for. cbn [Nat.eqb]. replace ((1 - 0) / INR 2) with (1 / 2) by (cbn [INR]; field).
    destruct (Rltb_spec (0 - 1 / 2) (1 / 4)); [|lra]. destruct (Rltb_spec (1 / 4) 1); [|lra].
    destruct (Rltb_spec 5 1); [lra|]. rewrite Bool.andb_false_r. reflexivity. }
  destruct (C55_angular_fraction [1 / 4; 5] 2 0 1) as (fs & E & _ & Hfs & _ & _); [lia|lra|rewrite Hc; lia|].
  exists fs. split; [exact E|]. split; [|split; [|reflexivity]].
  - rewrite (Hfs 1%nat) by lia. rewrite Hc. cbn [filter]. unfold counts_for. cbn [Nat.eqb].
    replace (0 + INR 1 * ((1 - 0) / INR 2)) with (1 / 2) by (cbn [INR]; field).
    destruct (Rleb_spec (1 / 2) (1 / 4)); [lra|]. destruct (Rltb_spec 5 1); [lra|]. rewrite Bool.andb_false_r.
    cbn [andb length INR]. field.
  - cbn [filter]. destruct (Rleb_spec 1 (1 / 4)); [lra|]. destruct (Rleb_spec 1 5); [reflexivity|lra].
Qed.
Print Assumptions C103_angular_fraction_refuted.

Example C55_nonvacuous : (1 <= length (filter (counts_for 0 1 ((1 - 0) / INR 2) 0) [(1 / 4)%R; (3 / 4)%R]))%nat.
Proof.
  cbn [filter]. unfold counts_for. cbn [Nat.eqb]. replace ((1 - 0) / INR 2) with (1 / 2) by (cbn [INR]; field).
  destruct (Rltb_spec (0 - 1 / 2) (1 / 4)); [|lra]. destruct (Rltb_spec (1 / 4) 1); [|lra]. cbn. lia.
Qed.
