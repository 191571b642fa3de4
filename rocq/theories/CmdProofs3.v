(** * Proofs about the coord table layout and the mass-radius relation. *)
From Coq Require Import Reals Lra Psatz.
From Verif Require Import GoBase GoBaseFacts ListFacts LoopBase LoopFacts CmdModel CmdProofs.
Import List ListNotations.
Local Open Scope nat_scope.

(** ** Layout when integer columns come first *)
Lemma split_floats {T} k : forall i (cols ic fc : list T) io fo, length cols = k ->
  split_cols i (repeat false k) cols ic fc io fo = Some (ic ++ fc ++ cols, io ++ fo ++ map (fun j => j + 2) (seq i k)).
Proof.
  induction k as [|k IH]; intros i cols ic fc io fo L.
  - destruct cols; [|discriminate]. cbn. now rewrite !app_nil_r.
  - destruct cols as [|c cols]; [discriminate|]. cbn [repeat split_cols]. rewrite IH by (cbn in L; lia).
    cbn [seq map]. now rewrite <- !app_assoc.
Qed.

Lemma split_ints {T} k : forall i ints (cols ic fc : list T) io fo, k <= length cols ->
  split_cols i (repeat true k ++ ints) cols ic fc io fo =
  split_cols (i + k) ints (skipn k cols) (ic ++ firstn k cols) fc (io ++ map (fun j => j + 2) (seq i k)) fo.
Proof.
  induction k as [|k IH]; intros i ints cols ic fc io fo L.
  - cbn. now rewrite !app_nil_r, Nat.add_0_r.
  - destruct cols as [|c cols]; [cbn in L; lia|]. cbn [repeat split_cols app]. rewrite IH by (cbn in L; lia).
    cbn [seq map firstn skipn]. rewrite <- !app_assoc. now replace (S i + k) with (i + S k) by lia.
Qed.

Lemma gather_all {T} (l : list T) : gather l (seq 0 (length l)) = Some l.
Proof.
  destruct l as [|d l0] eqn:El; [reflexivity|]. rewrite <- El.
  rewrite (gather_spec d) by (intros i Hi; apply in_seq in Hi; lia). f_equal.
  apply nth_ext with (d := d) (d' := d); [now rewrite map_length, seq_length|].
  intros n Hn. rewrite map_length, seq_length in Hn.
  rewrite (nth_indep _ d (nth 0 l d)) by (rewrite map_length, seq_length; lia).
  rewrite (map_nth (fun i => nth i l d)). now rewrite seq_nth.
Qed.

Lemma table_sorted {T} (id snap : T) a b cols : length cols = a + b ->
  coord_table id snap (repeat true a ++ repeat false b) cols = Some (id :: snap :: cols).
Proof.
  intros L. unfold coord_table. rewrite split_ints by lia. rewrite split_floats by (rewrite skipn_length; lia).
  cbn [fst snd].
  replace (([id; snap] ++ firstn a cols) ++ [] ++ skipn a cols) with (id :: snap :: cols)
    by (cbn; now rewrite firstn_skipn).
  replace (([0; 1] ++ map (fun j => j + 2) (seq 0 a)) ++ [] ++ map (fun j => j + 2) (seq (0 + a) b))
    with (seq 0 (length (id :: snap :: cols))).
  - apply gather_all.
  - cbn [length]. rewrite L. cbn [app]. rewrite <- map_app, <- seq_app.
    cbn [seq]. do 2 f_equal. rewrite <- (seq_shift (a + b) 1), <- (seq_shift (a + b) 0), map_map.
    apply map_ext. intros; lia.
Qed.

(** ** Mass and radius *)
Local Open Scope R_scope.
Lemma consts_pos : 0 < GMks /\ 0 < MpcMks /\ 0 < MSunMks.
Proof.
  unfold GMks, MpcMks, MSunMks. repeat split; repeat (apply Rmult_lt_0_compat || apply Rinv_0_lt_compat || apply pow_lt); try lra.
Qed.

Lemma hubble_pos oM oL z : 0 < oM -> 0 <= oL -> -1 < z -> 0 < HubbleFrac oM oL z.
Proof.
  intros. unfold HubbleFrac. apply sqrt_lt_R0. assert (0 < (1 + z) ^ 3) by (apply pow_lt; lra). nra.
Qed.

Lemma rho_crit_eq H0 oM oL z : H0 <> 0 -> 0 < oM -> 0 <= oL -> -1 < z ->
  RhoCritical H0 oM oL z = 3 * (oM * (1 + z) ^ 3 + oL) * (100000 / MpcMks) ^ 2 / (8 * PI * GMks) * MpcMks ^ 3 / MSunMks.
Proof.
  intros. unfold RhoCritical, rhoCriticalMks. cbv zeta. destruct consts_pos as (G & M & S).
  assert (E : HubbleFrac oM oL z * HubbleFrac oM oL z = oM * (1 + z) ^ 3 + oL).
  { unfold HubbleFrac. apply sqrt_sqrt. assert (0 < (1 + z) ^ 3) by (apply pow_lt; lra). nra. }
  replace (H0 * 1000 / MpcMks / (H0 / 100)) with (100000 / MpcMks) by (field; split; lra).
  set (k := 100000 / MpcMks). rewrite <- E.
  replace (3 * (HubbleFrac oM oL z * k) * (HubbleFrac oM oL z * k)) with (3 * (HubbleFrac oM oL z * HubbleFrac oM oL z) * k ^ 2) by ring.
  reflexivity.
Qed.

Lemma rho_crit_pos H0 oM oL z : H0 <> 0 -> 0 < oM -> 0 <= oL -> -1 < z -> 0 < RhoCritical H0 oM oL z.
Proof.
  intros. rewrite rho_crit_eq by assumption. destruct consts_pos as (G & M & S). pose proof PI_RGT_0.
  assert (0 < (1 + z) ^ 3) by (apply pow_lt; lra).
  assert (0 < 100000 / MpcMks) by (apply Rdiv_lt_0_compat; lra).
  assert (0 < (100000 / MpcMks) ^ 2) by (now apply pow_lt).
  assert (0 < MpcMks ^ 3) by (now apply pow_lt).
  assert (0 < oM * (1 + z) ^ 3 + oL) by nra.
  set (q := oM * (1 + z) ^ 3 + oL) in *. set (k := (100000 / MpcMks) ^ 2) in *. clearbody q k.
  apply Rdiv_lt_0_compat; [|assumption]. apply Rmult_lt_0_compat; [|assumption].
  apply Rdiv_lt_0_compat; [nra|]. nra.
Qed.

Definition physical (c : cosmo_header) : Prop := 0 < hH100 c /\ 0 < hOmegaM c /\ 0 <= hOmegaL c /\ -1 < hZ c.

Lemma threshold_pos r c : physical c -> 0 < threshold r c.
Proof.
  intros (H1 & H2 & H3 & H4).
  assert (P : 0 < RhoCritical (hH100 c * 100) (hOmegaM c) (hOmegaL c) (hZ c)) by (apply rho_crit_pos; lra).
  assert (P0 : 0 < RhoCritical (hH100 c * 100) (hOmegaM c) (hOmegaL c) 0) by (apply rho_crit_pos; lra).
  unfold threshold. cbv zeta. destruct r; try lra.
  unfold RhoAverage. assert (0 < (1 + hZ c) ^ 3) by (apply pow_lt; lra).
  apply Rmult_lt_0_compat; [lra|]. apply Rmult_lt_0_compat; [apply Rmult_lt_0_compat; assumption|assumption].
Qed.

Lemma cbrt_cube x : 0 <= x -> cbrt x * cbrt x * cbrt x = x.
Proof.
  intros H. unfold cbrt. destruct (Rlt_dec 0 x) as [P|P].
  - rewrite <- !Rpower_plus. replace (1 / 3 + 1 / 3 + 1 / 3) with 1 by field. now apply Rpower_1.
  - assert (x = 0) by lra. subst. ring.
Qed.
Lemma cbrt_nonneg x : 0 <= cbrt x.
Proof. unfold cbrt. destruct (Rlt_dec 0 x); [|lra]. unfold Rpower. left. apply exp_pos. Qed.
Lemma cube_lt x y : 0 <= x -> x < y -> x * x * x < y * y * y.
Proof. intros. assert (x * x <= y * y) by nra. assert (0 < y * y) by nra. nra. Qed.
Lemma cube_inj x y : 0 <= x -> 0 <= y -> x * x * x = y * y * y -> x = y.
Proof. intros. destruct (Rtotal_order x y) as [L|[E|L]]; [|exact E|]; apply cube_lt in L; lra. Qed.
Lemma cube_mono x y : 0 <= x -> 0 <= y -> x * x * x <= y * y * y -> x <= y.
Proof. intros. destruct (Rle_lt_dec x y) as [|L]; [assumption|]. apply cube_lt in L; lra. Qed.
Lemma cbrt_of_cube x : 0 <= x -> cbrt (x * x * x) = x.
Proof.
  intros H. apply cube_inj; [apply cbrt_nonneg|assumption|]. apply cbrt_cube. assert (0 <= x * x) by nra. nra.
Qed.
Lemma cbrt_mono x y : 0 <= x <= y -> cbrt x <= cbrt y.
Proof. intros. apply cube_mono; try apply cbrt_nonneg. rewrite !cbrt_cube by lra. lra. Qed.

Lemma mass_radius r c m : physical c -> 0 <= m -> mass_of r c (radius_of r c m) = m.
Proof.
  intros P Hm. pose proof (threshold_pos r c P) as T. unfold mass_of, radius_of. cbv zeta. pose proof PI_RGT_0.
  destruct P as (_ & _ & _ & Hz).
  set (f := threshold r c * 4 * PI / 3). assert (0 < f) by (unfold f; apply Rdiv_lt_0_compat; [|lra]; apply Rmult_lt_0_compat; lra).
  set (k := cbrt (m / f)).
  replace (k / (1 / (1 + hZ c)) * (1 / (1 + hZ c))) with k by (field; lra).
  unfold k. rewrite cbrt_cube.
  - field. lra.
  - destruct Hm as [Hm| <-]; [left; now apply Rdiv_lt_0_compat|right; unfold Rdiv; ring].
Qed.

Lemma radius_mass r c x : physical c -> 0 <= x -> radius_of r c (mass_of r c x) = x.
Proof.
  intros P Hx. pose proof (threshold_pos r c P) as T. unfold mass_of, radius_of. cbv zeta. pose proof PI_RGT_0.
  destruct P as (_ & _ & _ & Hz).
  set (f := threshold r c * 4 * PI / 3). assert (0 < f) by (unfold f; apply Rdiv_lt_0_compat; [|lra]; apply Rmult_lt_0_compat; lra).
  set (a := 1 / (1 + hZ c)). assert (0 < a) by (unfold a; apply Rdiv_lt_0_compat; lra).
  replace (f * (x * a * (x * a) * (x * a)) / f) with (x * a * (x * a) * (x * a)) by (field; lra).
  rewrite cbrt_of_cube by nra. field. lra.
Qed.

Lemma radius_antitone r1 r2 c m : physical c -> 0 <= m -> threshold r1 c <= threshold r2 c -> radius_of r2 c m <= radius_of r1 c m.
Proof.
  intros P Hm Ht. pose proof (threshold_pos r1 c P). pose proof PI_RGT_0. destruct P as (_ & _ & _ & Hz). unfold radius_of. cbv zeta.
  set (a := 1 / (1 + hZ c)). assert (0 < a) by (unfold a; apply Rdiv_lt_0_compat; lra).
  assert (0 < / a) by (now apply Rinv_0_lt_compat).
  unfold Rdiv at 1 4. apply Rmult_le_compat_r; [lra|]. apply cbrt_mono.
  assert (0 < threshold r1 c * 4 * PI / 3) by (apply Rdiv_lt_0_compat; [|lra]; apply Rmult_lt_0_compat; lra).
  assert (threshold r1 c * 4 * PI / 3 <= threshold r2 c * 4 * PI / 3).
  { apply Rmult_le_compat_r; [lra|]. apply Rmult_le_compat_r; [lra|]. lra. }
  assert (0 < / (threshold r2 c * 4 * PI / 3)) by (apply Rinv_0_lt_compat; lra).
  split.
  - unfold Rdiv at 1. nra.
  - unfold Rdiv at 1 4. apply Rmult_le_compat_l; [assumption|]. apply Rinv_le_contravar; assumption.
Qed.
