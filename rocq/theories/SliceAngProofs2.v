(** * Angles of tetrahedron slices: AngleRange is exact; IntersectingLines. *)
From Coq Require Import Reals Lra Psatz List Bool ZArith Lia.
From Verif Require Import RealBase ShellModel ShellProofs LosProofs3 GeomModel GeomSpec SliceAngModel SliceAngSpec SliceAngProofs.
Import List ListNotations.
Local Open Scope R_scope.

(** ** The hull is convex *)
Definition wx (ws : list R) (pts : list (R * R)) := fold_right Rplus 0 (map (fun p => fst p * fst (snd p)) (List.combine ws pts)).
Definition wy (ws : list R) (pts : list (R * R)) := fold_right Rplus 0 (map (fun p => fst p * snd (snd p)) (List.combine ws pts)).
Lemma hull_def pts x y : hull pts x y <-> exists ws, length ws = length pts /\ (forall v, In v ws -> 0 <= v) /\ fold_right Rplus 0 ws = 1 /\ x = wx ws pts /\ y = wy ws pts.
Proof. reflexivity. Qed.
Lemma hull_corner pts p : In p pts -> hull pts (fst p) (snd p).
Proof.
  intros P. apply hull_def. apply in_split in P. destruct P as (l1 & l2 & ->). exists (repeat 0 (length l1) ++ 1 :: repeat 0 (length l2)).
  assert (Z : forall l, wx (repeat 0 (length l)) l = 0 /\ wy (repeat 0 (length l)) l = 0 /\ fold_right Rplus 0 (repeat 0 (length l)) = 0).
  { intros l. induction l as [|q l (A & B & C)]; [repeat split; reflexivity|]. unfold wx, wy in *. cbn [length repeat combine map fold_right fst snd]. rewrite A, B, C. repeat split; ring. }
  split; [rewrite !app_length; cbn [length]; rewrite !repeat_length; reflexivity|]. split.
  { intros v V. apply in_app_or in V. destruct V as [V|[<-|V]]; [apply repeat_spec in V; lra|lra|apply repeat_spec in V; lra]. }
  assert (G : forall l, fold_right Rplus 0 (repeat 0 (length l) ++ 1 :: repeat 0 (length l2)) = 1 /\
    wx (repeat 0 (length l) ++ 1 :: repeat 0 (length l2)) (l ++ p :: l2) = fst p /\ wy (repeat 0 (length l) ++ 1 :: repeat 0 (length l2)) (l ++ p :: l2) = snd p).
  { intros l. destruct (Z l2) as (A & B & C). induction l as [|q l (D & E & F)]; unfold wx, wy in *; cbn [length repeat app combine map fold_right fst snd].
    - rewrite A, B, C. repeat split; ring.
    - rewrite D, E, F. repeat split; ring. }
  destruct (G l1) as (A & B & C). rewrite A, B, C. repeat split; reflexivity.
Qed.
Lemma hull_mix pts x1 y1 x2 y2 u : 0 <= u <= 1 -> hull pts x1 y1 -> hull pts x2 y2 -> hull pts ((1 - u) * x1 + u * x2) ((1 - u) * y1 + u * y2).
Proof.
  rewrite !hull_def. intros U (w1 & L1 & P1 & S1 & -> & ->) (w2 & L2 & P2 & S2 & -> & ->).
  assert (G : exists ws, length ws = length pts /\ (forall v, In v ws -> 0 <= v) /\ fold_right Rplus 0 ws = (1 - u) * fold_right Rplus 0 w1 + u * fold_right Rplus 0 w2 /\
    wx ws pts = (1 - u) * wx w1 pts + u * wx w2 pts /\ wy ws pts = (1 - u) * wy w1 pts + u * wy w2 pts).
  { clear S1 S2. revert w1 w2 L1 L2 P1 P2. induction pts as [|p pts IH]; intros [|a w1] [|b w2] L1 L2 P1 P2; try discriminate.
    - exists []. unfold wx, wy. cbn. repeat split; try ring. intros v [].
    - destruct (IH w1 w2) as (ws & A & B & C & D & E); [cbn in L1; lia|cbn in L2; lia|intros; apply P1; right; assumption|intros; apply P2; right; assumption|].
      exists (((1 - u) * a + u * b) :: ws). split; [cbn [length]; rewrite A; reflexivity|]. assert (0 <= a) by (apply P1; left; reflexivity). assert (0 <= b) by (apply P2; left; reflexivity).
      split; [intros v [<-|V]; [apply Rplus_le_le_0_compat; apply Rmult_le_pos; lra|exact (B v V)]|].
      unfold wx, wy in *. cbn [fold_right combine map fst snd]. rewrite C, D, E. repeat split; ring. }
  destruct G as (ws & A & B & C & D & E). exists ws. rewrite C, S1, S2, D, E. repeat split; auto; ring.
Qed.
Lemma hull_segment pts p q x y : In p pts -> In q pts -> on_segment p q x y -> hull pts x y.
Proof. intros P Q (u & U & -> & ->). apply hull_mix; [exact U|apply hull_corner; exact P|apply hull_corner; exact Q]. Qed.
Lemma hull_zero2 pts x1 y1 x2 y2 a b : hull pts x1 y1 -> hull pts x2 y2 -> 0 <= a -> 0 <= b -> 0 < a + b -> hull pts ((a * x1 + b * x2) / (a + b)) ((a * y1 + b * y2) / (a + b)).
Proof.
  intros H1 H2 A B S. replace ((a * x1 + b * x2) / (a + b)) with ((1 - b / (a + b)) * x1 + b / (a + b) * x2) by (field; lra).
  replace ((a * y1 + b * y2) / (a + b)) with ((1 - b / (a + b)) * y1 + b / (a + b) * y2) by (field; lra). apply hull_mix; auto.
  assert (E : b / (a + b) * (a + b) = b) by (field; lra). assert (0 <= b / (a + b)) by (apply Rmult_le_pos; [lra|left; apply Rinv_0_lt_compat; lra]). split; [lra|nra].
Qed.
Lemma hull_zero3 pts p q r a b c : In p pts -> In q pts -> In r pts -> 0 <= a -> 0 <= b -> 0 <= c -> 0 < a + b + c ->
  a * fst p + b * fst q + c * fst r = 0 -> a * snd p + b * snd q + c * snd r = 0 -> hull pts 0 0.
Proof.
  intros P Q R' A B C S E1 E2. destruct (Req_EM_T (a + b) 0) as [Z0|Z0].
  - assert (a = 0) by lra. assert (b = 0) by lra. subst a b. assert (fst r = 0) by nra. assert (snd r = 0) by nra.
    apply hull_corner in R'. rewrite H, H0 in R'. exact R'.
  - pose proof (hull_zero2 pts _ _ _ _ a b (hull_corner _ _ P) (hull_corner _ _ Q) A B ltac:(lra)) as H2.
    pose proof (hull_zero2 pts _ _ _ _ (a + b) c H2 (hull_corner _ _ R') ltac:(lra) C ltac:(lra)) as H3.
    replace (((a + b) * ((a * fst p + b * fst q) / (a + b)) + c * fst r) / (a + b + c)) with 0 in H3.
    2:{ replace ((a + b) * ((a * fst p + b * fst q) / (a + b)) + c * fst r) with 0; [field; lra|]. rewrite <- E1. field. lra. }
    replace (((a + b) * ((a * snd p + b * snd q) / (a + b)) + c * snd r) / (a + b + c)) with 0 in H3; [exact H3|].
    replace ((a + b) * ((a * snd p + b * snd q) / (a + b)) + c * snd r) with 0; [field; lra|]. rewrite <- E2. field. lra.
Qed.

(** ** The segment between two points seen less than half a turn apart *)
Lemma segment_ray s w r1 r2 d p q : 0 < r1 -> 0 < r2 -> 0 <= d <= w -> w < PI ->
  fst p = r1 * cos s -> snd p = r1 * sin s -> fst q = r2 * cos (s + w) -> snd q = r2 * sin (s + w) -> ray_meets (s + d) p q.
Proof.
  intros R1 R2 D W Px Py Qx Qy. destruct (Req_EM_T d 0) as [->|D0].
  { exists (fst p), (snd p). split; [exists 0; repeat split; try lra; ring|]. exists r1. rewrite Rplus_0_r. auto. }
  destruct (Req_EM_T d w) as [->|D1].
  { exists (fst q), (snd q). split; [exists 1; repeat split; try lra; ring|]. exists r2. auto. }
  assert (S1 : 0 < sin d) by (apply sin_gt_0; lra). assert (S2 : 0 < sin (w - d)) by (apply sin_gt_0; lra). assert (S3 : 0 < sin w) by (apply sin_gt_0; lra).
  set (A := r1 * sin d). set (B := r2 * sin (w - d)). assert (HA : 0 < A) by (unfold A; nra). assert (HB : 0 < B) by (unfold B; nra).
  set (u := A / (A + B)). assert (U : 0 <= u <= 1). { assert (u * (A + B) = A) by (unfold u; field; lra). split; [unfold u; left; apply Rdiv_lt_0_compat; lra|nra]. }
  exists ((1 - u) * fst p + u * fst q), ((1 - u) * snd p + u * snd q). split; [exists u; repeat split; lra|].
  exists (r1 * r2 * sin w / (A + B)). split; [apply Rdiv_lt_0_compat; [apply Rmult_lt_0_compat; [nra|lra]|lra]|].
  assert (E1 : forall f g, sin (w - d) * f s + sin d * f (s + w) = sin w * f (s + d) -> f = g -> B * (r1 * f s) + A * (r2 * f (s + w)) = r1 * r2 * sin w * f (s + d)).
  { intros f g E _. transitivity (r1 * r2 * (sin (w - d) * f s + sin d * f (s + w))); [unfold A, B; ring|rewrite E; ring]. }
  assert (EC : sin (w - d) * cos s + sin d * cos (s + w) = sin w * cos (s + d)).
  { rewrite sin_minus, !cos_plus. ring. }
  assert (ES : sin (w - d) * sin s + sin d * sin (s + w) = sin w * sin (s + d)).
  { rewrite sin_minus, !sin_plus. ring. }
  rewrite Px, Py, Qx, Qy. split.
  - replace ((1 - u) * (r1 * cos s) + u * (r2 * cos (s + w))) with ((B * (r1 * cos s) + A * (r2 * cos (s + w))) / (A + B)) by (unfold u; field; lra).
    rewrite (E1 cos cos EC eq_refl). field; lra.
  - replace ((1 - u) * (r1 * sin s) + u * (r2 * sin (s + w))) with ((B * (r1 * sin s) + A * (r2 * sin (s + w))) / (A + B)) by (unfold u; field; lra).
    rewrite (E1 sin sin ES eq_refl). field; lra.
Qed.
Lemma seen_dir phi phi' x y : same_direction phi phi' -> seen_at phi x y -> seen_at phi' x y.
Proof. intros D (r & R' & A & B). apply same_dir_cs in D. destruct D as (C1 & C2). exists r. rewrite <- C1, <- C2. auto. Qed.
Lemma ray_dir phi phi' p q : same_direction phi phi' -> ray_meets phi p q -> ray_meets phi' p q.
Proof. intros D (x & y & H & K). exists x, y. split; [exact H|]. eapply seen_dir; eauto. Qed.
Lemma seen_same phi phi' x y : seen_at phi x y -> seen_at phi' x y -> same_direction phi phi'.
Proof.
  intros (r & Hr & Ex & Ey) (r' & Hr' & Ex' & Ey').
  assert (N : r * r = r' * r').
  { pose proof (sin2_cos2 phi) as P1. pose proof (sin2_cos2 phi') as P2. unfold Rsqr in *.
    transitivity (x * x + y * y); [rewrite Ex, Ey; transitivity (r * r * (sin phi * sin phi + cos phi * cos phi)); [rewrite P1; ring|ring]
    |rewrite Ex', Ey'; transitivity (r' * r' * (sin phi' * sin phi' + cos phi' * cos phi')); [ring|rewrite P2; ring]]. }
  assert (r' = r) by nra. subst r'. assert (C1 : cos phi = cos phi') by (apply Rmult_eq_reg_l with r; lra). assert (S1 : sin phi = sin phi') by (apply Rmult_eq_reg_l with r; lra).
  assert (C0 : cos (phi - phi') = 1). { rewrite cos_minus, C1, S1. pose proof (sin2_cos2 phi') as P. unfold Rsqr in P. lra. }
  clear - C0. set (a := phi - phi') in *. assert (Ha : sin (a / 2) = 0).
  { assert (E : cos (2 * (a / 2)) = 1) by (replace (2 * (a / 2)) with a by field; exact C0). rewrite cos_2a_sin in E. assert (sin (a / 2) * sin (a / 2) = 0) by lra. nra. }
  apply sin_eq_0_0 in Ha. destruct Ha as (k & Hk). exists k. unfold a in *. lra.
Qed.

(** ** AngleRange is exact *)
Section Exact.
Variable pts : list (R * R).
Hypothesis Out : ~ hull pts 0 0.
Lemma corner_nz p : In p pts -> p <> (0, 0).
Proof. intros P E. apply Out. subst p. apply (hull_corner _ _ P). Qed.
Lemma corner_at phi : In phi (map corner_phi pts) -> exists p, In p pts /\ corner_phi p = phi /\ seen_at phi (fst p) (snd p).
Proof. intros H. apply in_map_iff in H. destruct H as (p & <- & P). exists p. split; [exact P|]. split; [reflexivity|]. apply corner_seen. apply corner_nz. exact P. Qed.
Lemma phis_turn phi : In phi (map corner_phi pts) -> turn phi.
Proof. intros H. apply in_map_iff in H. destruct H as (p & <- & P). apply corner_phi_turn. Qed.
Lemma not_opposite a b : In a (map corner_phi pts) -> In b (map corner_phi pts) -> angular_width a b <> PI.
Proof.
  intros A B E. destruct (corner_at _ A) as (p & P & _ & rp & Rp & Xp & Yp). destruct (corner_at _ B) as (q & Q & _ & rq & Rq & Xq & Yq).
  pose proof (aw_dir a b) as D. rewrite E in D. apply same_dir_cs in D. destruct D as (D1 & D2). rewrite neg_cos in D1. rewrite neg_sin in D2.
  apply Out. apply (hull_zero3 pts p q q rq rp 0); auto; try lra.
  - rewrite Xp, Xq, <- D1. ring.
  - rewrite Yp, Yq, <- D2. ring.
Qed.
Lemma not_around lo hi phi : In lo (map corner_phi pts) -> In hi (map corner_phi pts) -> In phi (map corner_phi pts) ->
  angular_width lo hi < PI -> PI < angular_width lo phi -> PI < angular_width phi hi -> False.
Proof.
  intros A B C W H1 H2. destruct (corner_at _ A) as (p & P & _ & rp & Rp & Xp & Yp). destruct (corner_at _ B) as (q & Q & _ & rq & Rq & Xq & Yq). destruct (corner_at _ C) as (r & R' & _ & rr & Rr & Xr & Yr).
  pose proof (aw_dir lo hi) as D1. pose proof (aw_dir lo phi) as D2. apply same_dir_cs in D1, D2. destruct D1 as (C1 & K1). destruct D2 as (C2 & K2).
  assert (G : angular_width lo phi < 2 * PI /\ angular_width phi hi < 2 * PI /\ angular_width lo phi - angular_width lo hi + angular_width phi hi = 2 * PI /\ 0 < angular_width lo hi).
  { apply phis_turn in A, B, C. unfold turn, angular_width in *. destruct (Rltb_spec lo hi), (Rltb_spec lo phi), (Rltb_spec phi hi); lra. }
  set (w := angular_width lo hi) in *. set (H := angular_width lo phi) in *.
  assert (S1 : 0 < sin w) by (apply sin_gt_0; lra). assert (S2 : 0 < sin (H - w)) by (apply sin_gt_0; lra). assert (S3 : 0 < - sin H) by (pose proof (sin_lt_0 H); lra).
  apply Out. apply (hull_zero3 pts p q r (sin (H - w) * rq * rr) (- sin H * rp * rr) (sin w * rp * rq)); auto.
  1,2,3: left; repeat apply Rmult_lt_0_compat; lra.
  - assert (0 < sin (H - w) * rq * rr) by (repeat apply Rmult_lt_0_compat; lra). assert (0 < - sin H * rp * rr) by (repeat apply Rmult_lt_0_compat; lra). assert (0 < sin w * rp * rq) by (repeat apply Rmult_lt_0_compat; lra). lra.
  - rewrite Xp, Xq, Xr, <- C1, <- C2, sin_minus, !cos_plus. ring.
  - rewrite Yp, Yq, Yr, <- K1, <- K2, sin_minus, !sin_plus. ring.
Qed.
Definition tight (st : R * R * R) : Prop := let '(lo, hi, w) := st in
  In lo (map corner_phi pts) /\ In hi (map corner_phi pts) /\ w = angular_width lo hi /\ w < PI.
Lemma expand_tight st phi : tight st -> In phi (map corner_phi pts) -> tight (expand st phi).
Proof.
  destruct st as [[lo hi] w]. intros (A & B & -> & W) P. unfold expand.
  pose proof (not_opposite lo phi A P) as N1. pose proof (not_opposite phi hi P B) as N2.
  assert (N : angular_width lo phi < PI \/ angular_width phi hi < PI).
  { destruct (Rlt_dec (angular_width lo phi) PI); [left; assumption|]. destruct (Rlt_dec (angular_width phi hi) PI); [right; assumption|]. exfalso. apply (not_around lo hi phi); auto; lra. }
  destruct (Rltb_spec (angular_width lo phi) (angular_width phi hi)).
  - destruct (Rltb_spec (angular_width lo hi) (angular_width lo phi)); [|exact (conj A (conj B (conj eq_refl W)))]. split; [exact A|]. split; [exact P|]. split; [reflexivity|lra].
  - destruct (Rltb_spec (angular_width lo hi) (angular_width phi hi)); [|exact (conj A (conj B (conj eq_refl W)))]. split; [exact P|]. split; [exact B|]. split; [reflexivity|lra].
Qed.
Lemma fold_tight phis : incl phis (map corner_phi pts) -> forall st, tight st -> tight (fold_left expand phis st).
Proof.
  induction phis as [|p phis IH]; intros I st T; [exact T|]. cbn [fold_left]. apply IH; [intros a Ha; apply I; right; exact Ha|]. apply expand_tight; [exact T|apply I; left; reflexivity].
Qed.
Lemma range_exact p0 p1 rest start width : pts = p0 :: p1 :: rest -> corner_phi p0 <> corner_phi p1 ->
  angle_range (map corner_phi pts) = Some (start, width) ->
  exists hi, In start (map corner_phi pts) /\ In hi (map corner_phi pts) /\ width = angular_width start hi /\ width < PI.
Proof.
  intros E N H. assert (I : incl (map corner_phi pts) (map corner_phi pts)) by (intros a; auto). assert (In0 : In (corner_phi p0) (map corner_phi pts)) by (rewrite E; left; reflexivity).
  assert (In1 : In (corner_phi p1) (map corner_phi pts)) by (rewrite E; right; left; reflexivity).
  assert (Ir : incl (map corner_phi rest) (map corner_phi pts)) by (rewrite E; intros a A; right; right; exact A).
  rewrite E in H. cbn [map] in H. unfold angle_range in H.
  assert (T : let '(lo, hi) := if Rltb (angular_width (corner_phi p1) (corner_phi p0)) (angular_width (corner_phi p0) (corner_phi p1)) then (corner_phi p1, corner_phi p0) else (corner_phi p0, corner_phi p1) in
    tight (lo, hi, angular_width lo hi)).
  { pose proof (not_opposite _ _ In0 In1) as O1. pose proof (not_opposite _ _ In1 In0) as O2. pose proof (phis_turn _ In0) as T0. pose proof (phis_turn _ In1) as T1.
    assert (S : angular_width (corner_phi p0) (corner_phi p1) + angular_width (corner_phi p1) (corner_phi p0) = 2 * PI).
    { unfold turn, angular_width in *. destruct (Rltb_spec (corner_phi p0) (corner_phi p1)), (Rltb_spec (corner_phi p1) (corner_phi p0)); lra. }
    destruct (Rltb_spec (angular_width (corner_phi p1) (corner_phi p0)) (angular_width (corner_phi p0) (corner_phi p1))); (split; [assumption|split; [assumption|split; [reflexivity|lra]]]). }
  destruct (if Rltb (angular_width (corner_phi p1) (corner_phi p0)) (angular_width (corner_phi p0) (corner_phi p1)) then (corner_phi p1, corner_phi p0) else (corner_phi p0, corner_phi p1)) as [lo hi].
  pose proof (fold_tight _ Ir _ T) as F. destruct (fold_left expand (map corner_phi rest) (lo, hi, angular_width lo hi)) as [[lo' hi'] w']. destruct F as (A & B & C & D).
  destruct (Rltb_spec PI w'); [lra|]. injection H as <- <-. exists hi'. auto.
Qed.
Lemma range_hit p0 p1 rest start width phi : pts = p0 :: p1 :: rest -> corner_phi p0 <> corner_phi p1 ->
  angle_range (map corner_phi pts) = Some (start, width) -> in_arc start width phi -> exists x y, hull pts x y /\ seen_at phi x y.
Proof.
  intros E N H (d & D & S). destruct (range_exact _ _ _ _ _ E N H) as (hi & A & B & C & W).
  destruct (corner_at _ A) as (p & P & _ & rp & Rp & Xp & Yp). destruct (corner_at _ B) as (q & Q & _ & rq & Rq & Xq & Yq).
  pose proof (aw_dir start hi) as Dh. rewrite <- C in Dh. apply same_dir_cs in Dh. destruct Dh as (C1 & K1).
  assert (M : ray_meets (start + d) p q). { apply (segment_ray start width rp rq d p q); auto; [rewrite C1; exact Xq|rewrite K1; exact Yq]. }
  apply (ray_dir _ phi) in M; [|exact S]. destruct M as (x & y & G & K). exists x, y. split; [|exact K]. apply (hull_segment pts p q); assumption.
Qed.
End Exact.

(** ** One line *)
Section OneLine.
Variables (pts : list (R * R)) (s e : nat) (phi : R).
Let phis := map corner_phi pts.
Hypothesis (Hs : (s < length pts)%nat) (He : (e < length pts)%nat).
Let P := nth s pts (0, 0).
Let Q := nth e pts (0, 0).
Hypothesis Tphi : turn phi.
Lemma nth_phi k : (k < length pts)%nat -> nth k phis 0 = corner_phi (nth k pts (0, 0)).
Proof. intros K. unfold phis. rewrite (nth_indep _ 0 (corner_phi (0, 0))) by (rewrite map_length; exact K). apply map_nth. Qed.
Lemma ad_facts a b : turn a -> turn b -> same_direction (a + angular_distance a b) b /\ - PI <= angular_distance a b <= PI.
Proof.
  unfold turn, angular_distance. intros A B. cbv zeta. destruct (Rltb_spec PI (b - a)); [split; [exists (-1)%Z; lra|lra]|]. destruct (Rltb_spec (b - a) (- PI)); [split; [exists 1%Z; lra|lra]|].
  split; [exists 0%Z; lra|lra].
Qed.
(** The line begins at the angle of one corner and ends at the angle of the other. *)
Lemma line_facts : exists P' Q', ((P' = P /\ Q' = Q /\ la_from (line_angle phis s e) = s /\ la_to (line_angle phis s e) = e) \/
    (P' = Q /\ Q' = P /\ la_from (line_angle phis s e) = e /\ la_to (line_angle phis s e) = s)) /\
  la_start (line_angle phis s e) = corner_phi P' /\ 0 <= la_width (line_angle phis s e) <= PI /\
  same_direction (la_start (line_angle phis s e) + la_width (line_angle phis s e)) (corner_phi Q').
Proof.
  unfold line_angle. cbv zeta. rewrite (nth_phi s Hs), (nth_phi e He). fold P Q. destruct (ad_facts (corner_phi P) (corner_phi Q) (corner_phi_turn _) (corner_phi_turn _)) as (A & B).
  destruct (Rltb_spec (angular_distance (corner_phi P) (corner_phi Q)) 0) as [L|L]; cbn [la_start la_width la_from la_to].
  - exists Q, P. split; [right; auto|]. split; [reflexivity|]. split; [lra|]. apply same_dir_sym. apply (same_dir_add _ _ (- angular_distance (corner_phi P) (corner_phi Q))) in A.
    replace (corner_phi P + angular_distance (corner_phi P) (corner_phi Q) + - angular_distance (corner_phi P) (corner_phi Q)) with (corner_phi P) in A by ring. exact A.
  - exists P, Q. split; [left; auto|]. split; [reflexivity|]. split; [lra|exact A].
Qed.
Lemma segment_swap p q x y : on_segment p q x y -> on_segment q p x y.
Proof. intros (u & U & -> & ->). exists (1 - u). split; [lra|]. split; ring. Qed.
Lemma meets_swap p q : ray_meets phi p q -> ray_meets phi q p.
Proof. intros (x & y & A & B). exists x, y. split; [apply segment_swap; exact A|exact B]. Qed.
(** At the angle of one of its corners a line is not found. *)
Lemma line_corner : phi = corner_phi P \/ phi = corner_phi Q -> line_hit phi (line_angle phis s e) = false.
Proof.
  intros H. destruct line_facts as (P' & Q' & C & A & W & D). unfold line_hit. cbv zeta. rewrite A in *. set (w := la_width (line_angle phis s e)) in *.
  pose proof (corner_phi_turn P') as T1. pose proof (corner_phi_turn Q') as T2. pose proof PI_RGT_0.
  assert (K : w <= angular_width (corner_phi P') phi).
  { destruct (Req_EM_T phi (corner_phi P')) as [->|N].
    - unfold angular_width. destruct (Rltb_spec (corner_phi P') (corner_phi P')); lra.
    - assert (phi = corner_phi Q') as -> by (destruct C as [(-> & -> & _)|(-> & -> & _)], H; congruence).
      pose proof (aw_dir (corner_phi P') (corner_phi Q')) as D2. pose proof (aw_range (corner_phi P') (corner_phi Q') T1 T2) as R2.
      destruct (Rle_dec w (angular_width (corner_phi P') (corner_phi Q'))); [assumption|]. exfalso.
      assert (D3 : same_direction (w - angular_width (corner_phi P') (corner_phi Q')) 0).
      { destruct D as (k & K1). destruct D2 as (j & K2). exists (k - j)%Z. rewrite minus_IZR. lra. }
      apply same_dir_turn in D3; unfold turn in *; lra. }
  destruct (Rltb_spec (angular_width (corner_phi P') phi) w); [lra|]. apply andb_false_r.
Qed.
Hypothesis (NP : ~ seen_at phi (fst P) (snd P)) (NQ : ~ seen_at phi (fst Q) (snd Q)).
Hypothesis NO : ~ on_segment P Q 0 0.
Lemma P_nz : P <> (0, 0).
Proof. intros E. apply NO. rewrite E. exists 0. cbn [fst snd]. split; [lra|]. split; ring. Qed.
Lemma Q_nz : Q <> (0, 0).
Proof. intros E. apply NO. rewrite E. exists 1. cbn [fst snd]. split; [lra|]. split; ring. Qed.
Lemma line_iff : line_hit phi (line_angle phis s e) = true <-> ray_meets phi P Q.
Proof.
  destruct line_facts as (P' & Q' & C & A & W & D). unfold line_hit. cbv zeta. rewrite A in *. set (w := la_width (line_angle phis s e)) in *. pose proof PI_RGT_0.
  assert (NP' : ~ seen_at phi (fst P') (snd P')) by (destruct C as [(-> & _)|(-> & _)]; assumption).
  assert (NQ' : ~ seen_at phi (fst Q') (snd Q')) by (destruct C as [(_ & -> & _)|(_ & -> & _)]; assumption).
  assert (ZP : P' <> (0, 0)) by (destruct C as [(-> & _)|(-> & _)]; [apply P_nz|apply Q_nz]).
  assert (ZQ : Q' <> (0, 0)) by (destruct C as [(_ & -> & _)|(_ & -> & _)]; [apply Q_nz|apply P_nz]).
  assert (NO' : ~ on_segment P' Q' 0 0) by (destruct C as [(-> & -> & _)|(-> & -> & _)]; [exact NO|intros Y; apply NO; apply segment_swap; exact Y]).
  assert (Sw : ray_meets phi P Q <-> ray_meets phi P' Q') by (destruct C as [(-> & -> & _)|(-> & -> & _)]; [reflexivity|split; apply meets_swap]). rewrite Sw. clear C Sw.
  destruct (corner_seen _ ZP) as (rp & Rp & Xp & Yp). destruct (corner_seen _ ZQ) as (rq & Rq & Xq & Yq). pose proof (same_dir_cs _ _ D) as (D1 & D2).
  assert (Wlt : w < PI).
  { destruct W as (_ & [W|W]); [exact W|]. exfalso. apply NO'. rewrite W, neg_cos in D1. rewrite W, neg_sin in D2. exists (rp / (rp + rq)).
    assert (U : rp / (rp + rq) * (rp + rq) = rp) by (field; lra). assert (0 < rp / (rp + rq)) by (apply Rdiv_lt_0_compat; lra). split; [split; [lra|nra]|].
    rewrite Xp, Xq, Yp, Yq, <- D1, <- D2. split; field; lra. }
  pose proof (corner_phi_turn P') as TP. pose proof (aw_range (corner_phi P') phi TP Tphi) as Rw. pose proof (aw_dir (corner_phi P') phi) as Dw. split.
  - intros H0. apply andb_prop in H0. destruct H0 as (_ & H0). destruct (Rltb_spec (angular_width (corner_phi P') phi) w) as [L|]; [|discriminate].
    apply (ray_dir (corner_phi P' + angular_width (corner_phi P') phi)); [exact Dw|]. apply (segment_ray (corner_phi P') w rp rq); auto; try lra; [rewrite D1; exact Xq|rewrite D2; exact Yq].
  - intros (x & y & (u & U & Ex & Ey) & K).
    assert (Cn : cone (corner_phi P') w x y).
    { rewrite Ex, Ey. apply cone_add; [lra| |]; apply cone_scale; try lra.
      - exists 0, rp. rewrite Rplus_0_r. repeat split; lra.
      - exists w, rq. rewrite D1, D2. repeat split; lra. }
    destruct Cn as (t & r & T & Hr & Ex' & Ey').
    assert (Rpos : 0 < r). { destruct Hr as [Hr|<-]; [exact Hr|]. destruct K as (r' & R' & X' & Y'). pose proof (sin2_cos2 phi) as P2. unfold Rsqr in P2. assert (r' * cos phi = 0) by lra. assert (r' * sin phi = 0) by lra. assert (cos phi = 0) by nra. assert (sin phi = 0) by nra. nra. }
    assert (St : same_direction (corner_phi P' + t) phi). { apply (seen_same _ _ x y); [exists r; auto|exact K]. }
    assert (T0 : t <> 0). { intros ->. apply NP'. rewrite Rplus_0_r in St. apply (seen_dir _ _ _ _ St). apply corner_seen. exact ZP. }
    assert (T1 : t <> w). { intros ->. apply NQ'. apply (seen_dir (corner_phi Q')); [|apply corner_seen; exact ZQ]. eapply same_dir_trans; [apply same_dir_sym; exact D|exact St]. }
    assert (Ea : angular_width (corner_phi P') phi = t).
    { destruct (Req_EM_T (angular_width (corner_phi P') phi) (2 * PI)) as [E2|E2].
      - exfalso. apply NP'. apply (seen_dir (corner_phi P')); [|apply corner_seen; exact ZP]. rewrite E2 in Dw. destruct Dw as (k & Hk). exists (k - 1)%Z. rewrite minus_IZR. lra.
      - apply same_dir_turn; [unfold turn; lra|unfold turn; lra|]. destruct Dw as (k & Hk). destruct St as (j & Hj). exists (k - j)%Z. rewrite minus_IZR. lra. }
    rewrite Ea. destruct (Rleb_spec 0 t); [|lra]. destruct (Rltb_spec t w); [reflexivity|lra].
Qed.
(** The ends of a line that the ray meets are on different sides of the ray. *)
Definition side (p : R * R) : R := cos phi * snd p - sin phi * fst p.
Lemma meets_sides : ray_meets phi P Q -> side P * side Q < 0.
Proof.
  intros (x & y & (u & U & Ex & Ey) & (r & Hr & Ex' & Ey')). unfold side.
  pose proof (sin2_cos2 phi) as P2. unfold Rsqr in P2. set (c := cos phi) in *. set (n := sin phi) in *. destruct P as [px py] eqn:EP. destruct Q as [qx qy] eqn:EQ. cbn [fst snd] in *.
  assert (E0 : (1 - u) * (c * py - n * px) + u * (c * qy - n * qx) = 0). { transitivity (c * y - n * x); [rewrite Ex, Ey; ring|rewrite Ex', Ey'; ring]. }
  assert (E1 : (1 - u) * (c * px + n * py) + u * (c * qx + n * qy) = r). { transitivity (c * x + n * y); [rewrite Ex, Ey; ring|rewrite Ex', Ey'; transitivity (r * (n * n + c * c)); [ring|rewrite P2; ring]]. }
  assert (Ax : forall a b, c * b - n * a = 0 -> a = (c * a + n * b) * c /\ b = (c * a + n * b) * n).
  { intros a b H. split.
    - transitivity (a * (n * n + c * c) + n * (c * b - n * a)); [rewrite P2, H; ring|ring].
    - transitivity (b * (n * n + c * c) - c * (c * b - n * a)); [rewrite P2, H; ring|ring]. }
  assert (NP2 : c * py - n * px = 0 -> c * px + n * py <= 0).
  { intros H. destruct (Rle_dec (c * px + n * py) 0); [assumption|]. exfalso. apply NP. destruct (Ax _ _ H) as (A & B). exists (c * px + n * py). split; [lra|]. split; [exact A|exact B]. }
  assert (NQ2 : c * qy - n * qx = 0 -> c * qx + n * qy <= 0).
  { intros H. destruct (Rle_dec (c * qx + n * qy) 0); [assumption|]. exfalso. apply NQ. destruct (Ax _ _ H) as (A & B). exists (c * qx + n * qy). split; [lra|]. split; [exact A|exact B]. }
  set (sp := c * py - n * px) in *. set (sq := c * qy - n * qx) in *. set (dp := c * px + n * py) in *. set (dq := c * qx + n * qy) in *. clearbody sp sq dp dq. clear - U E0 E1 NP2 NQ2 Hr.
  destruct (Req_EM_T sp 0) as [Zp|Zp]; [destruct (Req_EM_T sq 0) as [Zq|Zq]|destruct (Req_EM_T sq 0) as [Zq|Zq]].
  - specialize (NP2 Zp). specialize (NQ2 Zq). nra.
  - rewrite Zp in E0. assert (u = 0) by nra. subst u. specialize (NP2 Zp). lra.
  - rewrite Zq in E0. assert (u = 1) by nra. subst u. specialize (NQ2 Zq). lra.
  - destruct (Rle_dec 0 (sp * sq)) as [L|]; [|lra]. exfalso. assert (0 < sp * sq) by (assert (sp * sq <> 0) by (apply Rmult_integral_contrapositive_currified; assumption); lra).
    assert (E2 : (1 - u) * (sp * sp) + u * (sp * sq) = 0) by (transitivity (sp * ((1 - u) * sp + u * sq)); [ring|rewrite E0; ring]). assert (0 < sp * sp) by nra.
    destruct (Req_EM_T u 0) as [->|]; nra.
Qed.
End OneLine.
