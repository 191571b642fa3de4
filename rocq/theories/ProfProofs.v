(** * Profiles. *)
From Coq Require Import Reals Lra Lia ZArith List Bool Permutation.
From Verif Require Import ProfModel ProfSpec LosSpec LoopFacts InterpProofs RockstarProofs KdeProofs4 CmdProofs LosProofs3 LosProofs4 SortProofs SortProofs2.
From Verif Require Props_Sort Props_Pixel.
Import List ListNotations.
Local Open Scope R_scope.

(** ** Bins *)
Section Bins.
  Variables (n : nat) (rMin rMax : R).
  Hypothesis Hn : (0 < n)%nat.
  Hypothesis Hr : 0 < rMin < rMax.
  Let N := INR n.
  Let L := ln rMax - ln rMin.

  Lemma N_pos : 0 < N. Proof. apply lt_0_INR. exact Hn. Qed.
  Lemma L_pos : 0 < L. Proof. unfold L. assert (ln rMin < ln rMax) by (apply ln_increasing; lra). lra. Qed.
  Lemma L_div : ln (rMax / rMin) = L.
  Proof. unfold Rdiv, L. rewrite ln_mult, ln_Rinv by (try apply Rinv_0_lt_compat; lra). lra. Qed.

  Lemma edge_exp j : edge n rMin rMax j = exp (ln rMin + INR j * (L / N)).
  Proof. unfold edge. rewrite L_div, exp_plus, exp_ln by lra. fold N. do 2 f_equal. field. pose proof N_pos. lra. Qed.

  Lemma edge_0 : edge n rMin rMax 0 = rMin.
  Proof. rewrite edge_exp. cbn [INR]. replace (ln rMin + 0 * (L / N)) with (ln rMin) by ring. apply exp_ln. lra. Qed.
  Lemma edge_n : edge n rMin rMax n = rMax.
  Proof. rewrite edge_exp. fold N. replace (ln rMin + N * (L / N)) with (ln rMax) by (unfold L; field; pose proof N_pos; lra). apply exp_ln. lra. Qed.
  Lemma edge_pos j : 0 < edge n rMin rMax j. Proof. rewrite edge_exp. apply exp_pos. Qed.
  Lemma edge_lt i j : (i < j)%nat -> edge n rMin rMax i < edge n rMin rMax j.
  Proof. intros H. rewrite !edge_exp. apply exp_increasing. apply Rplus_lt_compat_l. apply Rmult_lt_compat_r; [apply Rdiv_lt_0_compat; [apply L_pos|apply N_pos]|]. now apply lt_INR. Qed.
  Lemma edge_le i j : (i <= j)%nat -> edge n rMin rMax i <= edge n rMin rMax j.
  Proof. intros H. destruct (Nat.eq_dec i j) as [->|Hne]; [lra|]. left. apply edge_lt. lia. Qed.

  (** The truncated logarithmic position is the index of the bin. *)
  Lemma trunc_bin r j : rMin < r -> Rtrunc ((ln r - ln rMin) / (L / N)) = Z.of_nat j <-> edge n rMin rMax j <= r < edge n rMin rMax (S j).
  Proof.
    intros H. pose proof N_pos. pose proof L_pos. assert (Hd : 0 < L / N) by (apply Rdiv_lt_0_compat; lra). assert (Hl : ln rMin < ln r) by (apply ln_increasing; lra).
    set (d := L / N) in *. assert (Hq : 0 <= (ln r - ln rMin) / d) by (apply Rmult_le_pos; [lra|left; apply Rinv_0_lt_compat; lra]).
    rewrite (Props_Pixel.trunc_iff _ (Z.of_nat j) Hq). rewrite <- INR_IZR_INZ.
    assert (E1 : INR j <= (ln r - ln rMin) / d <-> edge n rMin rMax j <= r).
    { rewrite edge_exp. fold d. rewrite <- (exp_ln r) at 2 by lra. set (q := (ln r - ln rMin) / d) in *. assert (Eq : ln r = ln rMin + q * d) by (unfold q; field; lra). rewrite Eq. split; intros G.
      - destruct (Rle_lt_or_eq_dec _ _ G) as [G'|G']; [left; apply exp_increasing|right; rewrite G'; reflexivity]. apply Rplus_lt_compat_l. apply Rmult_lt_compat_r; lra.
      - destruct (Rle_lt_dec (INR j) q) as [G'|G']; [exact G'|]. exfalso. apply (Rlt_not_le _ _ (exp_increasing (ln rMin + q * d) (ln rMin + INR j * d) ltac:(apply Rplus_lt_compat_l; apply Rmult_lt_compat_r; lra))). exact G. }
    assert (E2 : (ln r - ln rMin) / d < INR j + 1 <-> r < edge n rMin rMax (S j)).
    { rewrite edge_exp. fold d. rewrite S_INR. rewrite <- (exp_ln r) at 2 by lra. set (q := (ln r - ln rMin) / d) in *. assert (Eq : ln r = ln rMin + q * d) by (unfold q; field; lra). rewrite Eq. split; intros G.
      - apply exp_increasing. apply Rplus_lt_compat_l. apply Rmult_lt_compat_r; lra.
      - apply exp_lt_inv in G. apply Rplus_lt_reg_l in G. apply Rmult_lt_reg_r with d; lra. }
    tauto.
  Qed.

  Lemma bin_exists r : rMin < r < rMax -> exists j, (j < n)%nat /\ Rtrunc ((ln r - ln rMin) / (L / N)) = Z.of_nat j.
  Proof.
    intros H. pose proof N_pos. pose proof L_pos. assert (Hd : 0 < L / N) by (apply Rdiv_lt_0_compat; lra). assert (Hl : ln rMin < ln r) by (apply ln_increasing; lra).
    assert (Hq : 0 <= (ln r - ln rMin) / (L / N)) by (apply Rmult_le_pos; [lra|left; apply Rinv_0_lt_compat; lra]). destruct (Rtrunc_pos _ Hq) as (H0' & _).
    exists (Z.to_nat (Rtrunc ((ln r - ln rMin) / (L / N)))). assert (E : Rtrunc ((ln r - ln rMin) / (L / N)) = Z.of_nat (Z.to_nat (Rtrunc ((ln r - ln rMin) / (L / N))))) by (rewrite Z2Nat.id by exact H0'; reflexivity).
    split; [|exact E]. apply trunc_bin in E; [|lra]. set (j := Z.to_nat _) in *. destruct (Nat.lt_ge_cases j n) as [G|G]; [exact G|]. exfalso. pose proof (edge_le n j G). rewrite edge_n in *. lra.
  Qed.
End Bins.

(** ** Accumulation *)
Lemma total_app a b : total (a ++ b) = total a + total b.
Proof. induction a as [|x a IH]; [unfold total; cbn [app fold_right]; lra|]. change (x + total (a ++ b) = x + total a + total b). rewrite IH. lra. Qed.

Definition to_bin (act : nat -> option nat) (j i : nat) : bool := match act i with Some k => Nat.eqb k j | None => false end.

Lemma accumulate (n K : nat) (act : nat -> option nat) (m : nat -> R) body rhos :
  (forall i rh, (i < n)%nat -> length rh = K -> body i rh = match act i with None => Some rh | Some j => do rho <- rd rh j; wr rh j (rho + m i) end) ->
  (forall i j, (i < n)%nat -> act i = Some j -> (j < K)%nat) -> length rhos = K ->
  exists rhos', loop n body rhos = Some rhos' /\ length rhos' = K /\
    forall j, nth j rhos' 0 = nth j rhos 0 + total (map m (filter (to_bin act j) (seq 0 n))).
Proof.
  intros Hb Ha HK.
  apply (loop_inv (fun i rh => length rh = K /\ forall j, nth j rh 0 = nth j rhos 0 + total (map m (filter (to_bin act j) (seq 0 i))))).
  - split; [exact HK|]. intros j. cbn [seq filter map total fold_right]. lra.
  - intros i rh Hi (HL & Hn). rewrite (Hb i rh Hi HL). destruct (act i) as [k|] eqn:Ea.
    + pose proof (Ha i k Hi Ea) as Hk. rewrite (rd_nth rh k 0) by lia. cbn iota beta. destruct (wr_some rh k (nth k rh 0 + m i) 0 ltac:(lia)) as (rh' & E' & HL' & Hn').
      rewrite E'. exists rh'. split; [reflexivity|]. split; [lia|]. intros j. rewrite seq_S, filter_app, map_app, total_app, Hn'. cbn [filter Nat.add].
      unfold to_bin at 2. rewrite Ea. rewrite (Nat.eqb_sym k j). destruct (Nat.eqb_spec j k) as [->|]; cbn [map total fold_right]; rewrite Hn; lra.
    + exists rh. split; [reflexivity|]. split; [exact HL|]. intros j. rewrite seq_S, filter_app, map_app, total_app, Hn. cbn [filter Nat.add].
      unfold to_bin at 3. rewrite Ea. cbn [map total fold_right]. lra.
Qed.

Lemma mass_of_filter n (ms : list R) (P : nat -> Prop) f : (forall i, (i < n)%nat -> f i = true <-> P i) ->
  mass_of n ms P (total (map (fun i => nth i ms 0) (filter f (seq 0 n)))).
Proof.
  intros H. exists (filter f (seq 0 n)). split; [apply NoDup_filter, seq_NoDup|]. split; [|reflexivity].
  intros i. rewrite filter_In, in_seq. split; intros (A & B); (split; [lia|]); apply H; (assumption || lia).
Qed.

Definition to_cell (act : nat -> option (nat * nat)) (j p i : nat) : bool := match act i with Some (k, q) => Nat.eqb k j && Nat.eqb q p | None => false end.

Lemma accumulate2 (n K P : nat) (act : nat -> option (nat * nat)) (m : nat -> R) body med :
  (forall i md, (i < n)%nat -> length md = K -> (forall j, (j < K)%nat -> length (nth j md []) = P) -> body i md = match act i with None => Some md | Some (j, p) =>
     do row <- rd md j; do old <- rd row p; do row' <- wr row p (old + m i); wr md j row' end) ->
  (forall i j p, (i < n)%nat -> act i = Some (j, p) -> (j < K)%nat /\ (p < P)%nat) -> length med = K -> (forall j, (j < K)%nat -> length (nth j med []) = P) ->
  exists med', loop n body med = Some med' /\ length med' = K /\ (forall j, (j < K)%nat -> length (nth j med' []) = P) /\
    forall j p, nth p (nth j med' []) 0 = nth p (nth j med []) 0 + total (map m (filter (to_cell act j p) (seq 0 n))).
Proof.
  intros Hb Ha HK HP.
  destruct (loop_inv (fun i md => length md = K /\ (forall j, (j < K)%nat -> length (nth j md []) = P) /\ forall j p, nth p (nth j md []) 0 = nth p (nth j med []) 0 + total (map m (filter (to_cell act j p) (seq 0 i)))) n body med) as (med' & E & H1 & H2 & H3).
  - split; [exact HK|]. split; [exact HP|]. intros j p. cbn [seq filter map total fold_right]. lra.
  - intros i md Hi (HL & HLP & Hn). rewrite (Hb i md Hi HL HLP). destruct (act i) as [(k & q)|] eqn:Ea.
    + destruct (Ha i k q Hi Ea) as (Hk & Hq). rewrite (rd_nth md k []) by lia. cbn iota beta. pose proof (HLP k Hk) as HLk. rewrite (rd_nth (nth k md []) q 0) by lia. cbn iota beta.
      destruct (wr_some (nth k md []) q (nth q (nth k md []) 0 + m i) 0 ltac:(lia)) as (row' & Er & HLr & Hnr). rewrite Er. cbn iota beta.
      destruct (wr_some md k row' [] ltac:(lia)) as (md' & E' & HL' & Hn'). rewrite E'. exists md'. split; [reflexivity|]. split; [lia|]. split.
      * intros j Hj. rewrite Hn'. destruct (Nat.eqb_spec j k); [lia|apply HLP; exact Hj].
      * intros j p. rewrite seq_S, filter_app, map_app, total_app, Hn'. cbn [filter Nat.add].
        unfold to_cell at 2. rewrite Ea. rewrite (Nat.eqb_sym k j), (Nat.eqb_sym q p). destruct (Nat.eqb_spec j k) as [->|]; cbn [andb].
        -- rewrite Hnr. destruct (Nat.eqb_spec p q) as [->|]; cbn [map total fold_right]; rewrite Hn; lra.
        -- cbn [map total fold_right]. rewrite Hn. lra.
    + exists md. split; [reflexivity|]. split; [exact HL|]. split; [exact HLP|]. intros j p. rewrite seq_S, filter_app, map_app, total_app, Hn. cbn [filter Nat.add].
      unfold to_cell at 3. rewrite Ea. cbn [map total fold_right]. lra.
  - exists med'. auto.
Qed.

(** ** One particle *)
Lemma wrap_id x L : Rabs x <= L / 2 -> wrap x (L / 2) = x.
Proof.
  intros H. unfold wrap. assert (- (L / 2) <= x <= L / 2) by (revert H; unfold Rabs; destruct (Rcase_abs x); lra).
  destruct (Rltb (L / 2) x) eqn:E1; [apply Rltb_true in E1; lra|]. destruct (Rltb x (- (L / 2))) eqn:E2; [apply Rltb_true in E2; lra|]. reflexivity.
Qed.

Lemma displacement_id s L x : in_half_box L (e_c s) x ->
  displacement s L x = let '(a0, b0, c0) := e_c s in let '(a, b, c) := x in (a - a0, b - b0, c - c0).
Proof. unfold in_half_box, displacement. destruct (e_c s) as ((a0, b0), c0), x as ((a, b), c). cbv zeta. intros (H1 & H2 & H3). now rewrite !wrap_id. Qed.

Lemma r2_cmp a r2 : 0 < a -> 0 <= r2 -> (Rleb r2 (a * a) = false <-> a < sqrt r2) /\ (Rleb (a * a) r2 = false <-> sqrt r2 < a).
Proof.
  intros Ha Hr. rewrite !Rleb_false. pose proof (sqrt_pos r2). pose proof (sqrt_sqrt r2 Hr). set (q := sqrt r2) in *. clearbody q. split; split; intros; nra.
Qed.

(** The bin of a distance in the open annulus. *)
Lemma radial_index_spec c s r2 (j : nat) : (0 < pc_bins c)%nat -> 0 < pc_rMin c < pc_rMax c -> 0 < e_R s ->
  e_R s * pc_rMin c < sqrt r2 < e_R s * pc_rMax c -> 0 <= r2 ->
  (exists k, (k < pc_bins c)%nat /\ radial_index c s r2 = Z.of_nat k) /\
  (radial_index c s r2 = Z.of_nat j <-> edge (pc_bins c) (e_R s * pc_rMin c) (e_R s * pc_rMax c) j <= sqrt r2 < edge (pc_bins c) (e_R s * pc_rMin c) (e_R s * pc_rMax c) (S j)).
Proof.
  intros Hb Hm HR Hr H0. set (rMin := e_R s * pc_rMin c) in *. set (rMax := e_R s * pc_rMax c) in *. assert (Hmm : 0 < rMin < rMax) by (unfold rMin, rMax; nra).
  assert (Hs : 0 < sqrt r2) by lra. assert (El : ln r2 / 2 = ln (sqrt r2)).
  { rewrite <- (sqrt_sqrt r2 H0) at 1. rewrite ln_mult by lra. lra. }
  destruct (bin_exists (pc_bins c) rMin rMax Hb Hmm (sqrt r2) Hr) as (k & Hk & Ek).
  assert (Er : radial_index c s r2 = Z.of_nat k).
  { unfold radial_index. cbv zeta. fold rMin rMax. rewrite El, Ek. destruct (Z.eqb_spec (Z.of_nat k) (Z.of_nat (pc_bins c))); [lia|reflexivity]. }
  split; [exists k; auto|]. rewrite Er, <- Ek. apply trunc_bin; [assumption|assumption|lra].
Qed.

(** The bin a particle is added to. *)
Definition act_of (c : ProfConf) (s : ESphere) (tw : R) (shell : R -> R -> R -> bool) (x v : vec) : option nat :=
  let '(dx, dy, dz) := displacement s tw x in
  let r2 := dx * dx + dy * dy + dz * dz in
  if Rleb r2 (e_R s * pc_rMin c * (e_R s * pc_rMin c)) || Rleb (e_R s * pc_rMax c * (e_R s * pc_rMax c)) r2 then None else
  let a := Some (Z.to_nat (radial_index c s r2)) in
  match pc_type c with
  | Contained => if shell dx dy dz then a else None
  | BoundDensity =>
      let '(vx, vy, vz) := v in let '(ux, uy, uz) := e_v s in
      if Rltb ((vx - ux) * (vx - ux) + (vy - uy) * (vy - uy) + (vz - uz) * (vz - uz)) (vesc2 s r2) then a else None
  | _ => a
  end.

(** Which particles of the annulus a profile counts. *)
Definition counted (c : ProfConf) (s : ESphere) (shell : R -> R -> R -> bool) (x v : vec3) : Prop :=
  match pc_type c with
  | Contained => let '(a0, b0, c0) := e_c s in let '(a, b, c) := x in shell (a - a0) (b - b0) (c - c0) = true
  | BoundDensity => nfw_bound (e_M s) (e_R s) (e_Rs s) (sqrt (dist2_3 x (e_c s))) (dist2_3 v (e_v s))
  | _ => True
  end.

Section Particle.
  Variables (c : ProfConf) (s : ESphere) (tw : R) (shell : R -> R -> R -> bool).
  Hypothesis Hb : (0 < pc_bins c)%nat.
  Hypothesis Hm : 0 < pc_rMin c < pc_rMax c.
  Hypothesis HR : 0 < e_R s.
  Let rMin := e_R s * pc_rMin c.
  Let rMax := e_R s * pc_rMax c.

  Lemma mm : 0 < rMin < rMax. Proof. unfold rMin, rMax. nra. Qed.

  Lemma annulus_iff r2 : 0 <= r2 ->
    Rleb r2 (e_R s * pc_rMin c * (e_R s * pc_rMin c)) || Rleb (e_R s * pc_rMax c * (e_R s * pc_rMax c)) r2 = false <-> rMin < sqrt r2 < rMax.
  Proof.
    intros H0. pose proof mm as Hmm. rewrite orb_false_iff. fold rMin rMax. destruct (r2_cmp rMin r2 ltac:(lra) H0) as (A & _). destruct (r2_cmp rMax r2 ltac:(lra) H0) as (_ & B). tauto.
  Qed.

  Lemma sq3_nonneg a b d : 0 <= a * a + b * b + d * d. Proof. nra. Qed.

  (** For every particle, wherever it is, insert_point either adds the mass to a bin or does nothing. *)
  Lemma insert_point_act x v m rhos : length rhos = pc_bins c ->
    insert_point c s tw shell x v m rhos = match act_of c s tw shell x v with None => Some rhos | Some j => do rho <- rd rhos j; wr rhos j (rho + m) end.
  Proof.
    intros HL. unfold insert_point, act_of. destruct (displacement s tw x) as ((dx, dy), dz). cbv zeta. pose proof (sq3_nonneg dx dy dz) as H0. set (r2 := dx * dx + dy * dy + dz * dz) in *.
    destruct (_ || _) eqn:E; [reflexivity|]. apply (annulus_iff r2 H0) in E. destruct (radial_index_spec c s r2 0 Hb Hm HR E H0) as ((k & Hk & Ek) & _).
    rewrite Ek. destruct (Z.ltb_spec (Z.of_nat k) 0); [lia|]. destruct (pc_type c); try reflexivity; [destruct (shell dx dy dz); reflexivity|].
    destruct v as ((vx, vy), vz). destruct (e_v s) as ((ux, uy), uz). destruct (Rltb _ _); reflexivity.
  Qed.

  Lemma act_bins x v j : act_of c s tw shell x v = Some j -> (j < pc_bins c)%nat.
  Proof.
    unfold act_of. destruct (displacement s tw x) as ((dx, dy), dz). cbv zeta. pose proof (sq3_nonneg dx dy dz) as H0. set (r2 := dx * dx + dy * dy + dz * dz) in *.
    destruct (_ || _) eqn:E; [discriminate|]. apply (annulus_iff r2 H0) in E. destruct (radial_index_spec c s r2 0 Hb Hm HR E H0) as ((k & Hk & Ek) & _).
    rewrite Ek, Nat2Z.id. destruct (pc_type c); try (intros [= <-]; exact Hk); [destruct (shell dx dy dz); [intros [= <-]; exact Hk|discriminate]|].
    destruct v as ((vx, vy), vz). destruct (e_v s) as ((ux, uy), uz). destruct (Rltb _ _); [intros [= <-]; exact Hk|discriminate].
  Qed.

  Lemma vesc2_spec r2 dv2 : rMin < sqrt r2 -> 0 <= r2 -> Rltb dv2 (vesc2 s r2) = true <-> nfw_bound (e_M s) (e_R s) (e_Rs s) (sqrt r2) dv2.
  Proof.
    intros H H0. rewrite Rltb_true. unfold vesc2, nfw_bound. cbv zeta. set (vv := 508 * sqrt _). replace (e_M s / 60000000000000 / e_R s) with (e_M s / 60000000000000 / (e_R s / 1)) by (field; lra). fold vv.
    set (D := ln (1 + e_R s / e_Rs s) - e_R s / e_Rs s / (1 + e_R s / e_Rs s)). set (X := sqrt r2 / e_R s). set (Lg := ln (1 + e_R s / e_Rs s * X)).
    replace (vv * vv * (1 / D) * Lg / X * 2) with (2 * (vv ^ 2 * (Lg / X) / D)) by (unfold Rdiv; ring). reflexivity.
  Qed.

  (** Within half the box: the bin is that of the distance. *)
  Lemma act_spec x v j : in_half_box tw (e_c s) x ->
    act_of c s tw shell x v = Some j <-> counted c s shell x v /\ in_bin (e_c s) (pc_bins c) rMin rMax j x.
  Proof.
    intros Hh. unfold act_of, counted, in_bin. rewrite (displacement_id s tw x Hh). destruct (e_c s) as ((a0, b0), c0), x as ((a, b), d). cbv zeta.
    change (dist2_3 (a, b, d) (a0, b0, c0)) with ((a - a0) * (a - a0) + (b - b0) * (b - b0) + (d - c0) * (d - c0)). pose proof (sq3_nonneg (a - a0) (b - b0) (d - c0)) as H0. set (r2 := (a - a0) * (a - a0) + (b - b0) * (b - b0) + (d - c0) * (d - c0)) in *.
    destruct (_ || _) eqn:E.
    - split; [discriminate|]. intros (_ & HX & _). apply (annulus_iff r2 H0) in HX. congruence.
    - apply (annulus_iff r2 H0) in E. destruct (radial_index_spec c s r2 j Hb Hm HR E H0) as ((k & Hk & Ek) & HI). fold rMin rMax in HI. rewrite <- HI, Ek, Nat2Z.id.
      assert (EJ : Some k = Some j <-> Z.of_nat k = Z.of_nat j) by (split; [intros [= ->]; reflexivity|intros G; f_equal; lia]).
      destruct (pc_type c); try tauto.
      + destruct (shell _ _ _); [tauto|]. split; [discriminate|]. intros (? & _); discriminate.
      + destruct v as ((vx, vy), vz). destruct (e_v s) as ((ux, uy), uz). unfold dist2_3. pose proof (vesc2_spec r2 ((vx - ux) * (vx - ux) + (vy - uy) * (vy - uy) + (vz - uz) * (vz - uz)) ltac:(lra) H0) as V.
        destruct (Rltb _ _); [tauto|]. split; [discriminate|]. intros (G & _). apply V in G. discriminate.
  Qed.
End Particle.
