(** * Proofs about angular-fraction profiles and bootstrap errors. *)
From Verif Require Import ProfAngModel ProfAngSpec StatsRunModel StatsProofs2 LoopFacts ShellProofs Props_Shell Props_Sort RealBase GoBaseFacts.
From Coq Require Import Reals Lra Lia ZArith List Permutation.
Import List ListNotations.
Local Open Scope R_scope.

Lemma prof_shell_pd cs o phi th : (2 * o * o <= length cs)%nat -> prof_shell o cs phi th = pd_radius o cs (direction (phi, th)).
Proof.
  intros L. unfold prof_shell. rewrite penna_func_sum by lia. rewrite bsum_sum_n. unfold pd_radius, direction.
  replace (o * o * 2)%nat with (2 * o * o)%nat by lia. rewrite sum_n_flat. rewrite (sum_n_flat 2 o). apply sum_n_ext. intros k Hk. apply sum_n_ext. intros j Hj. apply sum_n_ext. intros i Hi.
  rewrite pbasis_at by assumption. rewrite pow_add, !Rpow_mult_distr. ring.
Qed.

(** ** Radii *)
Lemma edge_ln n rMin rMax t : (0 < n)%nat -> 0 < rMin -> 0 < rMax -> edge n rMin rMax t = exp (ln rMin + t * ((ln rMax - ln rMin) / INR n)).
Proof.
  intros Hn H1 H2. unfold edge, Rpower. assert (0 < INR n) by (apply lt_0_INR; lia). rewrite exp_plus, exp_ln by assumption.
  unfold Rdiv at 2. rewrite ln_mult by (auto using Rinv_0_lt_compat). rewrite ln_Rinv by assumption. f_equal. f_equal. field. lra.
Qed.
Lemma filter_ln (f : R -> bool) vals : length (filter f (map ln (filter (fun r => Rltb 0 r) vals))) = length (filter (fun v => Rltb 0 v && f (ln v)) vals).
Proof.
  induction vals as [|v vals IH]; [reflexivity|]. cbn [filter]. destruct (Rltb 0 v) eqn:E; cbn [map filter andb]; [|exact IH].
  destruct (f (ln v)); cbn [length]; rewrite IH; reflexivity.
Qed.
Lemma le_ln a v : 0 < v -> (a <= ln v <-> exp a <= v).
Proof.
  intros H. split; intros K; [rewrite <- (exp_ln v H); destruct K as [K| ->]; [left; apply exp_increasing; exact K|right; reflexivity]|].
  destruct (Rle_lt_dec a (ln v)) as [|C]; [auto|]. apply exp_increasing in C. rewrite exp_ln in C by auto. lra.
Qed.
Lemma lt_ln a v : 0 < v -> (a < ln v <-> exp a < v).
Proof.
  intros H. split; intros K; [rewrite <- (exp_ln v H); apply exp_increasing; exact K|].
  destruct (Rlt_le_dec a (ln v)) as [|C]; [auto|]. rewrite <- (ln_exp a) in C. exfalso. destruct C as [C|C]; [apply ln_lt_inv in C; auto using exp_pos; lra|apply ln_inv in C; auto using exp_pos; lra].
Qed.
Lemma counts_beyond bins rMin rMax j vals : (0 < bins)%nat -> 0 < rMin < rMax ->
  let dlr := (ln rMax - ln rMin) / INR bins in
  length (filter (counts_for (ln rMin) (ln rMax) dlr j) (map ln (filter (fun r => Rltb 0 r) vals))) = beyond bins rMin rMax vals j.
Proof.
  intros Hb [H1 H2] dlr. rewrite filter_ln. unfold beyond, strictly_between, how_many.
  assert (HM : forall v, 0 < v -> (ln v < ln rMax <-> v < rMax)). { intros v Hv. split; intros K; [apply ln_lt_inv; auto; lra|apply ln_increasing; auto]. }
  destruct j as [|j]; f_equal; apply filter_ext; intros v; unfold counts_for; rewrite edge_ln by (auto; lra); fold dlr; cbn [Nat.eqb]; unfold Rltb, Rleb.
  - replace (ln rMin + -1 * dlr) with (ln rMin - dlr) by ring. pose proof (exp_pos (ln rMin - dlr)). pose proof (lt_ln (ln rMin - dlr) v). pose proof (HM v).
    destruct (Rlt_dec 0 v) as [P|P]; cbn [andb].
    + destruct (Rlt_dec (ln rMin - dlr) (ln v)), (Rlt_dec (exp (ln rMin - dlr)) v), (Rlt_dec (ln v) (ln rMax)), (Rlt_dec v rMax); cbn [andb]; tauto || auto.
    + destruct (Rlt_dec (exp (ln rMin - dlr)) v); [lra|reflexivity].
  - set (a := ln rMin + INR (S j) * dlr). pose proof (exp_pos a). pose proof (le_ln a v). pose proof (HM v).
    destruct (Rlt_dec 0 v) as [P|P]; cbn [andb].
    + destruct (Rle_dec a (ln v)), (Rle_dec (exp a) v), (Rlt_dec (ln v) (ln rMax)), (Rlt_dec v rMax); cbn [andb]; tauto || auto.
    + destruct (Rle_dec (exp a) v); [lra|reflexivity].
Qed.

Lemma fraction_profile_ok s draws bins rMin rMax : (1 <= bins)%nat -> 0 < rMin < rMax ->
  let radii := map (fun a => s (fst a) (snd a)) draws in (1 <= beyond bins rMin rMax radii 0)%nat ->
  exists rs fs, fraction_profile s draws bins rMin rMax = Some (rs, fs) /\ length rs = bins /\ length fs = bins /\
    forall j, (j < bins)%nat -> nth j rs 0 = edge bins rMin rMax (INR j + 1 / 2) /\ nth j fs 0 = INR (beyond bins rMin rMax radii j) / INR (beyond bins rMin rMax radii 0).
Proof.
  intros Hb H radii Hc. unfold fraction_profile. cbv zeta. fold radii. set (lrs := map ln (filter _ radii)). set (dlr := (ln rMax - ln rMin) / INR bins).
  assert (HL : ln rMin < ln rMax) by (apply ln_increasing; lra).
  destruct (C55_angular_fraction lrs bins (ln rMin) (ln rMax) Hb HL) as (fs & E & Lf & Hf & _).
  { cbv zeta. unfold lrs. rewrite (counts_beyond bins rMin rMax 0 radii) by (auto; lia). exact Hc. }
  rewrite E. eexists. exists fs. split; [reflexivity|]. split; [rewrite map_length, seq_length; reflexivity|]. split; [exact Lf|]. intros j Hj. split.
  - rewrite edge_ln by (lra || lia). fold dlr. set (g := fun i => exp (ln rMin + (INR i + 1 / 2) * dlr)). change (exp _) with (g j).
    rewrite (nth_indep _ 0 (g 0%nat)) by (rewrite map_length, seq_length; lia). rewrite map_nth, seq_nth by lia. reflexivity.
  - rewrite Hf by auto. unfold lrs. cbv zeta. rewrite !(counts_beyond bins rMin rMax) by (auto; lia). reflexivity.
Qed.

(** ** The columns *)
Lemma mapo_all {A B} (f : A -> option B) (g : A -> B) l : (forall a, In a l -> f a = Some (g a)) -> mapo f l = Some (map g l).
Proof. intros H. induction l as [|a l IH]; [reflexivity|]. cbn [mapo map]. rewrite (H a) by (left; auto). rewrite IH by (intros; apply H; right; auto). reflexivity. Qed.

Definition row_coeffs (coeffs : list (list R)) (i : nat) : list R := map (fun col => nth i col 0) coeffs.
Lemma line_coeffs_ok coeffs i n : (i < n)%nat -> Forall (fun c => length c = n) coeffs -> line_coeffs coeffs i = Some (row_coeffs coeffs i).
Proof.
  intros Hi H. unfold line_coeffs. apply mapo_all. intros col Hc. rewrite Forall_forall in H. unfold rd. rewrite (nth_error_nth' col 0); [reflexivity|]. rewrite H; auto.
Qed.

Lemma fraction_columns_ok draw o bins a b x y z Rs coeffs n : (1 <= bins)%nat -> 0 < a < b -> length Rs = n -> Forall (fun c => length c = n) coeffs -> length coeffs = (2 * o * o)%nat ->
  (forall r, In r Rs -> 0 < r) ->
  let radii i := map (fun d => pd_radius o (row_coeffs coeffs i) (direction d)) (draw i) in
  (forall i, (i < n)%nat -> (1 <= beyond bins (nth i Rs 0%R * a) (nth i Rs 0%R * b) (radii i) 0)%nat) ->
  exists rcols fcols, fraction_columns draw o bins a b [x; y; z; Rs] coeffs n = Some (rcols ++ fcols) /\ length rcols = bins /\ length fcols = bins /\
    Forall (fun c => length c = n) (rcols ++ fcols) /\
    forall i j, (i < n)%nat -> (j < bins)%nat -> let r := nth i Rs 0 in
      nth i (nth j rcols []) 0 = edge bins (r * a) (r * b) (INR j + 1 / 2) /\
      nth i (nth j fcols []) 0 = INR (beyond bins (r * a) (r * b) (radii i) j) / INR (beyond bins (r * a) (r * b) (radii i) 0).
Proof.
  intros Hb Hab LR LC LN HR radii Hc. unfold fraction_columns. cbn [rd nth_error].
  set (prof := fun i => fraction_profile (prof_shell o (row_coeffs coeffs i)) (draw i) bins (nth i Rs 0 * a) (nth i Rs 0 * b)).
  set (g := fun i => match prof i with Some p => p | None => ([], []) end).
  assert (P : forall i, (i < n)%nat -> exists rs fs, prof i = Some (rs, fs) /\ length rs = bins /\ length fs = bins /\ forall j, (j < bins)%nat ->
    nth j rs 0 = edge bins (nth i Rs 0 * a) (nth i Rs 0 * b) (INR j + 1 / 2) /\ nth j fs 0 = INR (beyond bins (nth i Rs 0 * a) (nth i Rs 0 * b) (radii i) j) / INR (beyond bins (nth i Rs 0 * a) (nth i Rs 0 * b) (radii i) 0)).
  { intros i Hi. assert (Hr : 0 < nth i Rs 0) by (apply HR, nth_In; lia). unfold prof.
    assert (Er : map (fun d => prof_shell o (row_coeffs coeffs i) (fst d) (snd d)) (draw i) = radii i).
    { unfold radii. apply map_ext. intros [phi th]. apply prof_shell_pd. unfold row_coeffs. rewrite map_length. lia. }
    destruct (fraction_profile_ok (prof_shell o (row_coeffs coeffs i)) (draw i) bins (nth i Rs 0 * a) (nth i Rs 0 * b)) as (rs & fs & E & L1 & L2 & V); auto; [split; nra| |].
    - cbv zeta. rewrite Er. auto. - cbv zeta in V. rewrite Er in V. exists rs, fs. auto. }
  rewrite (mapo_all _ g).
  2:{ intros i Hi. apply in_seq in Hi. rewrite (line_coeffs_ok coeffs i n) by (auto; lia). unfold rd. rewrite (nth_error_nth' Rs 0) by lia. fold (prof i). unfold g.
      destruct (P i ltac:(lia)) as (rs & fs & E & _). rewrite E. reflexivity. }
  do 2 eexists. split; [reflexivity|]. rewrite !map_length, !seq_length. split; [reflexivity|]. split; [reflexivity|]. split.
  - apply Forall_app. split; apply Forall_forall; intros c Hc'; apply in_map_iff in Hc'; destruct Hc' as (j & <- & _); rewrite !map_length, seq_length; reflexivity.
  - intros i j Hi Hj. cbv zeta. destruct (P i Hi) as (rs & fs & E & L1 & L2 & V). destruct (V j Hj) as [V1 V2]. rewrite <- V1, <- V2.
    assert (N : forall (h : nat -> list R) , nth j (map h (seq 0 bins)) [] = h j).
    { intros h. rewrite (nth_indep _ [] (h 0%nat)) by (rewrite map_length, seq_length; lia). rewrite map_nth, seq_nth by lia. reflexivity. }
    rewrite !N. assert (M : forall h : list R * list R -> R, nth i (map h (map g (seq 0 n))) 0 = h (g i)).
    { intros h. rewrite map_map. rewrite (nth_indep _ 0 (h (g 0%nat))) by (rewrite map_length, seq_length; lia). rewrite (map_nth (fun k => h (g k))), seq_nth by lia. reflexivity. }
    rewrite !M. unfold g. rewrite E. auto.
Qed.

(** ** Bootstrap *)
Lemma rltb_total : SortProofs.total_preorder Rltb.
Proof. split; intros *; unfold Rltb; repeat match goal with |- context [Rlt_dec ?a ?b] => destruct (Rlt_dec a b) end; intros; try discriminate; auto; lra. Qed.

Definition deviation_form (ps : list R) : R := let n := INR (length ps) in sqrt (total (map (fun p => p * p) ps) / n - total ps / n * (total ps / n)).
Lemma total_app a b : total (a ++ b) = total a + total b.
Proof. unfold total. rewrite fold_right_app. induction a as [|x a IH]; cbn [fold_right]; [lra|rewrite IH; lra]. Qed.
Lemma total_scale k l : total (map (fun p => k * p) l) = k * total l.
Proof. unfold total. induction l as [|x l IH]; cbn [map fold_right]; [lra|rewrite IH; lra]. Qed.
Lemma variance_sum ps m : total (map (fun p => (p - m) * (p - m)) ps) = total (map (fun p => p * p) ps) - 2 * m * total ps + INR (length ps) * (m * m).
Proof. unfold total. induction ps as [|x l IH]; [cbn; lra|]. cbn [map fold_right]. rewrite IH. change (length (x :: l)) with (S (length l)). rewrite S_INR. ring. Qed.
Lemma total_pos l : (forall v, In v l -> 0 <= v) -> 0 <= total l.
Proof. unfold total. induction l as [|x l IH]; intros H; cbn [fold_right]; [lra|]. pose proof (H x (or_introl eq_refl)). specialize (IH (fun v K => H v (or_intror K))). lra. Qed.
Lemma deviation_ok ps : ps <> [] -> is_deviation ps (deviation_form ps).
Proof.
  intros Hne. unfold is_deviation, deviation_form. cbv zeta. set (n := INR (length ps)).
  assert (Hn : 0 < n) by (unfold n; apply lt_0_INR; destruct ps; [congruence|cbn; lia]). split; [apply sqrt_pos|].
  assert (E : mean (map (fun p => (p - mean ps) * (p - mean ps)) ps) = total (map (fun p => p * p) ps) / n - total ps / n * (total ps / n)).
  { unfold mean at 1. rewrite map_length, variance_sum. unfold mean. fold n. field. lra. }
  rewrite E. apply sqrt_sqrt. rewrite <- E. unfold mean at 1. rewrite map_length. fold n. apply Rmult_le_pos; [|left; apply Rinv_0_lt_compat; exact Hn].
  apply total_pos. intros v Hv. apply in_map_iff in Hv. destruct Hv as (p & <- & _). apply Rle_0_sqr.
Qed.

Lemma resample_ok {A} (draw : nat -> nat -> nat) (x : list A) i : (forall j, (j < length x)%nat -> (draw i j < length x)%nat) ->
  exists s, resample draw x i = Some s /\ sample_of x s.
Proof.
  intros H. destruct x as [|d x']; [exists []; split; [reflexivity|split; [reflexivity|intros v []]]|]. set (x := d :: x') in *.
  exists (map (fun j => nth (draw i j) x d) (seq 0 (length x))). split.
  - unfold resample. apply mapo_all. intros j Hj. apply in_seq in Hj. unfold rd. apply nth_error_nth'. apply H. lia.
  - split; [rewrite map_length, seq_length; reflexivity|]. intros v Hv. apply in_map_iff in Hv. destruct Hv as (j & <- & Hj). apply in_seq in Hj. apply nth_In. apply H. lia.
Qed.
Lemma resample_nth {A} (draw : nat -> nat -> nat) (x : list A) i s j : resample draw x i = Some s -> (j < length x)%nat -> nth_error s j = nth_error x (draw i j).
Proof.
  unfold resample. assert (G : forall l s, mapo (fun j => rd x (draw i j)) l = Some s -> forall k a, nth_error l k = Some a -> nth_error s k = nth_error x (draw i a)).
  { induction l as [|b l IH]; intros s' E k a Hk; [destruct k; discriminate|]. cbn [mapo] in E. destruct (rd x (draw i b)) as [v|] eqn:Ev; [|discriminate].
    destruct (mapo _ l) as [s''|] eqn:El; [|discriminate]. injection E as <-. destruct k as [|k]; cbn in Hk |- *; [injection Hk as ->; symmetry; exact Ev|]. eapply IH; eauto. }
  intros E Hj. eapply G; [exact E|]. rewrite (nth_error_nth' _ 0%nat) by (rewrite seq_length; auto). rewrite seq_nth by auto. reflexivity.
Qed.

Lemma bootstrap_ok draw x scratch num den samples : x <> [] -> length scratch = length x -> (0 <= num <= den)%Z -> (0 < den)%Z -> (0 < samples)%nat ->
  (forall i j, (i < samples)%nat -> (j < length x)%nat -> (draw i j < length x)%nat) ->
  exists ps e, bootstrap real_arith draw x scratch num den samples = Some e /\ length ps = samples /\ is_deviation ps e /\
    forall i p, nth_error ps i = Some p -> exists s, length s = length x /\ (forall j, (j < length x)%nat -> nth_error s j = nth_error x (draw i j)) /\
      SortProofs2.ranked R Rltb s (Z.max 1 (num * Z.of_nat (length x) / den)) p.
Proof.
  intros Hx Hs Hp Hd Hn D. unfold bootstrap.
  assert (G : forall k, (k <= samples)%nat -> exists ps, fold_left (bootstrap_step real_arith draw x scratch num den) (seq 0 k) (Some (a_zero real_arith, a_zero real_arith)) = Some (total ps, total (map (fun p => p * p) ps)) /\
    length ps = k /\ forall i p, nth_error ps i = Some p -> exists s, length s = length x /\ (forall j, (j < length x)%nat -> nth_error s j = nth_error x (draw i j)) /\
      SortProofs2.ranked R Rltb s (Z.max 1 (num * Z.of_nat (length x) / den)) p).
  { induction k as [|k IH]; intros Hk; [exists []; split; [reflexivity|split; [reflexivity|intros [|i] p K; discriminate]]|].
    destruct IH as (ps & E & L & W); [lia|]. rewrite seq_S, fold_left_app, E. cbn [fold_left Nat.add]. unfold bootstrap_step.
    destruct (resample_ok draw x k ltac:(intros j Hj; apply D; lia)) as (s & Es & Ls & Is). rewrite Es.
    destruct (Props_Sort.C110_percentile_rank R Rltb s num den (Some scratch) rltb_total) as (r & sc & Er & Rk); auto; [destruct s, x; cbn in Ls; congruence|intros b [= <-]; congruence|].
    cbn [a_lt real_arith]. rewrite Er. cbn [fst a_add a_mul real_arith]. exists (ps ++ [r]). rewrite map_app, !total_app. cbn [map].
    split; [f_equal; f_equal; unfold total at 3; cbn [fold_right]; rewrite Rplus_0_r; reflexivity|]. split; [rewrite app_length, L; cbn; lia|]. intros i p K. destruct (Nat.lt_ge_cases i k) as [Hi|Hi].
    - rewrite nth_error_app1 in K by lia. apply W; exact K.
    - rewrite nth_error_app2 in K by lia. assert (i = k) by (assert (i - length ps < 1)%nat by (apply nth_error_Some with (l := [r]); congruence); lia). subst i.
      rewrite L, Nat.sub_diag in K. injection K as <-. exists s. split; [exact Ls|]. split; [intros j Hj; eapply resample_nth; eauto|]. rewrite Ls in Rk. exact Rk. }
  destruct (G samples (le_n _)) as (ps & E & L & W). rewrite E. exists ps, (deviation_form ps). split; [|split; [exact L|split; [apply deviation_ok; intros ->; cbn in L; lia|exact W]]].
  cbn [a_sqrt a_sub a_mul a_div a_nat real_arith]. unfold deviation_form. rewrite L. reflexivity.
Qed.
