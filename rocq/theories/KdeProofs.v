(** * Proofs: the density table of GaussianKDE, binByTheta, localSplineMaxes. *)
From Coq Require Import Lra Lia.
From Verif Require Import GoBase GoBaseFacts RealBase LoopBase LoopFacts InterpModel InterpSpec InterpProofs KdeModel KdeSpec MatProofs Props_Interp.
Import List ListNotations.
Local Open Scope R_scope.

Lemma div_le_of x y d : 0 < d -> x <= y * d -> x / d <= y.
Proof. intros Hd H. apply (Rmult_le_reg_r d); [exact Hd|]. unfold Rdiv. rewrite Rmult_assoc, Rinv_l, Rmult_1_r by lra. exact H. Qed.
Lemma le_div_of x y d : 0 < d -> x * d <= y -> x <= y / d.
Proof. intros Hd H. apply (Rmult_le_reg_r d); [exact Hd|]. unfold Rdiv. rewrite Rmult_assoc, Rinv_l, Rmult_1_r by lra. exact H. Qed.
Lemma lt_div_of x y d : 0 < d -> x * d < y -> x < y / d.
Proof. intros Hd H. apply (Rmult_lt_reg_r d); [exact Hd|]. unfold Rdiv. rewrite Rmult_assoc, Rinv_l, Rmult_1_r by lra. exact H. Qed.
Lemma div_lt_of x y d : 0 < d -> x < y * d -> x / d < y.
Proof. intros Hd H. apply (Rmult_lt_reg_r d); [exact Hd|]. unfold Rdiv. rewrite Rmult_assoc, Rinv_l, Rmult_1_r by lra. exact H. Qed.

(** ** The grid *)
Lemma kde_grid_length low high n : (1 <= n)%nat -> length (kde_grid low high n) = n.
Proof. intros. unfold kde_grid. rewrite app_length, map_length, seq_length. cbn. lia. Qed.

Lemma kde_grid_nth low high n i d : (2 <= n)%nat -> (i < n)%nat -> nth i (kde_grid low high n) d = even_point low high n i.
Proof.
  intros Hn Hi. unfold kde_grid, even_point. set (g := fun i => low + (high - low) / INR (n - 1) * INR i).
  assert (H0 : 0 < INR (n - 1)) by (apply lt_0_INR; lia).
  destruct (Nat.lt_ge_cases i (n - 1)) as [H|H].
  - rewrite app_nth1 by (rewrite map_length, seq_length; exact H).
    rewrite (nth_indep _ d (g O)) by (rewrite map_length, seq_length; exact H). rewrite (map_nth g), seq_nth by exact H. unfold g. cbn [Nat.add]. ring.
  - rewrite app_nth2; rewrite map_length, seq_length; [|exact H]. replace (i - (n - 1))%nat with O by lia. cbn [nth].
    replace i with (n - 1)%nat by lia. field. lra.
Qed.

Lemma even_lt low high n i j : (2 <= n)%nat -> low < high -> (i < j)%nat -> even_point low high n i < even_point low high n j.
Proof.
  intros Hn Hlh Hij. unfold even_point. assert (H0 : 0 < INR (n - 1)) by (apply lt_0_INR; lia).
  assert (0 < (high - low) / INR (n - 1)) by (apply Rdiv_lt_0_compat; lra). apply lt_INR in Hij. nra.
Qed.
Lemma even_first low high n : even_point low high n 0 = low.
Proof. unfold even_point. cbn [INR]. ring. Qed.
Lemma even_last low high n : (2 <= n)%nat -> even_point low high n (n - 1) = high.
Proof. intros Hn. unfold even_point. assert (H0 : 0 < INR (n - 1)) by (apply lt_0_INR; lia). field. lra. Qed.

Lemma kde_grid_increasing low high n : (2 <= n)%nat -> low < high -> InterpSpec.increasing (kde_grid low high n).
Proof.
  intros Hn Hlh i j a b Hij Ha Hb.
  assert (Hj : (j < n)%nat) by (rewrite <- (kde_grid_length low high n) by lia; apply nth_error_Some; congruence).
  apply (nth_error_nth _ _ 0) in Ha. apply (nth_error_nth _ _ 0) in Hb. rewrite kde_grid_nth in Ha, Hb by lia. subst a b. now apply even_lt.
Qed.

Lemma kde_grid_within low high n x : (2 <= n)%nat -> within (kde_grid low high n) x <-> low <= x <= high.
Proof.
  intros Hn. unfold within. rewrite kde_grid_length by lia.
  assert (E0 : nth_error (kde_grid low high n) 0 = Some low).
  { rewrite (nth_error_nth' _ 0) by (rewrite kde_grid_length; lia). rewrite kde_grid_nth, even_first by lia. reflexivity. }
  assert (E1 : nth_error (kde_grid low high n) (n - 1) = Some high).
  { rewrite (nth_error_nth' _ 0) by (rewrite kde_grid_length; lia). rewrite kde_grid_nth, even_last by lia. reflexivity. }
  rewrite E0, E1. split; [intros (a & b & [= <-] & [= <-] & H); exact H|]. intros H. exists low, high. auto.
Qed.

(** ** One point *)
Lemma Rtrunc_nonpos x : x < 0 -> (Rtrunc x <= 0)%Z.
Proof.
  intros H. unfold Rtrunc. destruct (Rle_dec 0 x); [lra|]. destruct (base_Int_part (- x)) as [_ H1].
  assert (-1 < IZR (Int_part (- x))) by lra. apply lt_IZR in H0. lia.
Qed.

Definition gk (h x g : R) : R := exp (- ((g - x) / h) ^ 2).

Lemma kde_add_ok h low high n x ys : (2 <= n)%nat -> low < high -> 0 < h -> length ys = n ->
  exists ys', kde_add (kde_grid low high n) h low ((high - low) / INR (n - 1)) n x ys = Some ys' /\ length ys' = n /\
    forall i, (i < n)%nat -> exists w, nth i ys' 0 = nth i ys 0 + w /\
      (w = gk h x (even_point low high n i) \/ w = 0 /\ 3 * h < Rabs (even_point low high n i - x)).
Proof.
  intros Hn Hlh Hh HL. set (dx := (high - low) / INR (n - 1)).
  assert (H0 : 0 < INR (n - 1)) by (apply lt_0_INR; lia).
  assert (Hdx : 0 < dx) by (apply Rdiv_lt_0_compat; lra).
  unfold kde_add. cbv zeta.
  set (lo := if (Rtrunc ((x - h * 3 - low) / dx) <? 0)%Z then 0%Z else Rtrunc ((x - h * 3 - low) / dx)).
  set (hi0 := (Rtrunc ((x + h * 3 - low) / dx) + 1)%Z).
  set (hi := if (Z.of_nat n <=? hi0)%Z then (Z.of_nat n - 1)%Z else hi0).
  assert (Hlo : (0 <= lo)%Z) by (unfold lo; destruct (Z.ltb_spec (Rtrunc ((x - h * 3 - low) / dx)) 0); lia).
  assert (Hhi : (hi <= Z.of_nat n - 1)%Z) by (unfold hi; destruct (Z.leb_spec (Z.of_nat n) hi0); lia).
  assert (Hin : forall i, (i < n)%nat -> Rabs (even_point low high n i - x) <= 3 * h -> (lo <= Z.of_nat i <= hi)%Z).
  { intros i Hi Habs. assert (Ha : - (3 * h) <= even_point low high n i - x <= 3 * h) by (unfold Rabs in Habs; destruct (Rcase_abs (even_point low high n i - x)); lra).
    unfold even_point in Ha. fold dx in Ha. pose proof (pos_INR i) as Hi0. split.
    - unfold lo. destruct (Z.ltb_spec (Rtrunc ((x - h * 3 - low) / dx)) 0) as [|Hge]; [lia|].
      destruct (Rle_lt_dec 0 ((x - h * 3 - low) / dx)) as [Hp|Hneg].
      + destruct (Rtrunc_pos _ Hp) as [_ Hb]. apply le_IZR. rewrite <- INR_IZR_INZ.
        apply Rle_trans with ((x - h * 3 - low) / dx); [lra|]. apply div_le_of; [exact Hdx|]. lra.
      + pose proof (Rtrunc_nonpos _ Hneg). lia.
    - unfold hi. destruct (Z.leb_spec (Z.of_nat n) hi0); [lia|]. unfold hi0.
      assert (HB : INR i <= (x + h * 3 - low) / dx) by (apply le_div_of; [exact Hdx|]; lra).
      destruct (Rtrunc_pos ((x + h * 3 - low) / dx)) as [_ Hb]; [lra|].
      assert (INR i < IZR (Rtrunc ((x + h * 3 - low) / dx) + 1)) by (rewrite plus_IZR; lra).
      rewrite INR_IZR_INZ in H1. apply lt_IZR in H1. lia. }
  clearbody lo hi. clear hi0.
  destruct (Nat.le_gt_cases (Z.to_nat lo) (Z.to_nat (hi + 1))) as [Hle|Hgt].
  - match goal with |- context [loop_from _ _ ?b ys] => set (body := b) end.
    destruct (loop_from_inv (fun k ys' => length ys' = n /\ forall i, (i < n)%nat -> nth i ys' 0 = nth i ys 0 + (if (Z.to_nat lo <=? i)%nat && (i <? k)%nat then gk h x (even_point low high n i) else 0))
      (Z.to_nat lo) (Z.to_nat (hi + 1)) body ys) as (ys' & E & L & H).
    + exact Hle.
    + split; [exact HL|]. intros i Hi. destruct (Nat.leb_spec (Z.to_nat lo) i), (Nat.ltb_spec i (Z.to_nat lo)); cbn [andb]; try lia; lra.
    + intros k t Hk (L & H). unfold body. assert (Hkn : (k < n)%nat) by lia.
      rewrite (rd_nth _ _ 0) by (rewrite kde_grid_length; lia). rewrite kde_grid_nth by lia. rewrite (rd_nth t k 0) by lia.
      destruct (wr_some t k (nth k t 0 + exp (- ((even_point low high n k - x) / h) * ((even_point low high n k - x) / h))) 0) as (t' & E & L' & Hn'); [lia|].
      exists t'. split; [exact E|]. split; [lia|]. intros i Hi. rewrite Hn'.
      destruct (Nat.eqb_spec i k) as [->|Hne].
      * rewrite H by exact Hkn. replace ((Z.to_nat lo <=? k)%nat) with true by lia. replace ((k <? k)%nat) with false by lia. replace ((k <? S k)%nat) with true by lia.
        cbn [andb]. unfold gk. rewrite Rplus_0_r. do 2 f_equal. ring.
      * rewrite H by exact Hi. replace (i <? S k)%nat with (i <? k)%nat by lia. reflexivity.
    + exists ys'. split; [exact E|]. split; [exact L|]. intros i Hi. eexists. split; [apply H; exact Hi|].
      destruct ((Z.to_nat lo <=? i)%nat && (i <? Z.to_nat (hi + 1))%nat) eqn:Eb; [now left|right]. split; [reflexivity|].
      apply Rnot_le_lt. intros Habs. specialize (Hin i Hi Habs). lia.
  - unfold loop_from. replace (Z.to_nat (hi + 1) - Z.to_nat lo)%nat with O by lia. cbn [loop]. exists ys. split; [reflexivity|]. split; [exact HL|]. intros i Hi. exists 0. split; [ring|]. right. split; [reflexivity|].
    apply Rnot_le_lt. intros Habs. specialize (Hin i Hi Habs). lia.
Qed.

Lemma gk_pos h x g : 0 < gk h x g.
Proof. apply exp_pos. Qed.
Lemma gk_far h x g : 0 < h -> 3 * h < Rabs (g - x) -> gk h x g < exp (-9).
Proof.
  intros Hh H. unfold gk. apply exp_increasing. set (q := (g - x) / h).
  assert (Hq : 3 < Rabs q). { unfold q, Rdiv. rewrite Rabs_mult, (Rabs_pos_eq (/ h)) by (left; now apply Rinv_0_lt_compat). apply lt_div_of; [exact Hh|lra]. }
  assert (E : q ^ 2 = Rabs q * Rabs q) by (rewrite <- Rabs_mult, Rabs_pos_eq by nra; ring). rewrite E. nra.
Qed.

Lemma kde_table_ok h low high n : (2 <= n)%nat -> low < high -> 0 < h -> forall xs,
  exists ys, kde_table xs h low high n = Some ys /\ length ys = n /\
    forall i, (i < n)%nat -> kde xs h (even_point low high n i) - INR (length xs) * exp (-9) <= nth i ys 0 <= kde xs h (even_point low high n i) /\
      ((forall x, In x xs -> Rabs (even_point low high n i - x) <= 3 * h) -> nth i ys 0 = kde xs h (even_point low high n i)).
Proof.
  intros Hn Hlh Hh xs. unfold kde_table. cbv zeta.
  match goal with |- context [loop _ ?b ?s] => set (body := b); set (s0 := s) end.
  assert (Hs0 : length s0 = n) by apply repeat_length.
  assert (Hkde : forall k, (k < length xs)%nat -> forall g, kde (firstn (S k) xs) h g = kde (firstn k xs) h g + gk h (nth k xs 0) g).
  { intros k Hk g. assert (E : firstn (S k) xs = firstn k xs ++ [nth k xs 0]).
    { clear -Hk. revert k Hk. induction xs as [|x xs IH]; intros [|k] Hk; cbn [length firstn nth app] in *; try lia; [reflexivity|]. f_equal. apply IH. lia. }
    rewrite E. unfold kde. rewrite fold_right_app. cbn [fold_right]. rewrite Rplus_0_r. fold (gk h (nth k xs 0) g).
    generalize (gk h (nth k xs 0) g) as c. generalize (firstn k xs) as l. induction l as [|a l IHl]; intros c; cbn [fold_right]; [lra|]. rewrite IHl. ring. }
  destruct (loop_inv (fun k ys => length ys = n /\ forall i, (i < n)%nat ->
      kde (firstn k xs) h (even_point low high n i) - INR k * exp (-9) <= nth i ys 0 <= kde (firstn k xs) h (even_point low high n i) /\
      ((forall x, In x (firstn k xs) -> Rabs (even_point low high n i - x) <= 3 * h) -> nth i ys 0 = kde (firstn k xs) h (even_point low high n i)))
    (length xs) body s0) as (ys & E & L & H).
  - split; [exact Hs0|]. intros i Hi. cbn [firstn kde fold_right INR]. unfold kde. cbn [fold_right].
    unfold s0. rewrite nth_repeat. split; [lra|reflexivity].
  - intros k t Hk (L & H). unfold body. rewrite (rd_nth xs k 0) by exact Hk.
    destruct (kde_add_ok h low high n (nth k xs 0) t Hn Hlh Hh L) as (t' & E & L' & H'). exists t'. split; [exact E|]. split; [exact L'|].
    intros i Hi. destruct (H' i Hi) as (w & -> & Hw). destruct (H i Hi) as [Hb Hex]. rewrite Hkde by exact Hk. rewrite S_INR.
    pose proof (exp_pos (-9)) as He. pose proof (gk_pos h (nth k xs 0) (even_point low high n i)) as Hgp. split.
    + destruct Hw as [->|[-> Hfar]]; [lra|]. pose proof (gk_far h _ _ Hh Hfar). lra.
    + intros Hall. assert (Hin : In (nth k xs 0) (firstn (S k) xs)).
      { clear -Hk. revert k Hk. induction xs as [|x xs IH]; intros [|k] Hk; cbn [length firstn nth] in *; try lia; [now left|]. right. apply IH. lia. }
      destruct Hw as [->|[-> Hfar]].
      * rewrite Hex; [reflexivity|]. intros x Hx. apply Hall. clear -Hx. revert k Hx. induction xs as [|y xs IH]; intros [|k] Hx; cbn [firstn] in *; [destruct Hx..|].
        destruct Hx as [->|Hx]; [now left|]. right. apply IH. exact Hx.
      * specialize (Hall _ Hin). lra.
  - exists ys. split; [exact E|]. split; [exact L|]. rewrite firstn_all in H. exact H.
Qed.

Lemma gaussian_kde_ok xs h low high n : (3 <= n)%nat -> low < high -> 0 < h ->
  exists s ys f f1 f2, gaussian_kde xs h low high n = Some s /\ natural_spline (kde_grid low high n) ys f f1 f2 /\ length ys = n /\
    (forall x, low <= x <= high -> SplineEval s x = Some (f x)) /\ (forall x, ~ (low <= x <= high) -> SplineEval s x = None) /\
    forall i, (i < n)%nat -> f (even_point low high n i) = nth i ys 0 /\
      kde xs h (even_point low high n i) - INR (length xs) * exp (-9) <= nth i ys 0 <= kde xs h (even_point low high n i) /\
      ((forall x, In x xs -> Rabs (even_point low high n i - x) <= 3 * h) -> nth i ys 0 = kde xs h (even_point low high n i)).
Proof.
  intros Hn Hlh Hh. destruct (kde_table_ok h low high n ltac:(lia) Hlh Hh xs) as (ys & E & L & H).
  destruct (C16_spline (kde_grid low high n) ys) as (s & f & f1 & f2 & Es & Hs & Hev & Hout & _).
  { rewrite kde_grid_length; lia. } { apply kde_grid_increasing; [lia|exact Hlh]. } { rewrite kde_grid_length; lia. }
  exists s, ys, f, f1, f2. unfold gaussian_kde. destruct (Nat.eqb_spec n 0); [lia|]. rewrite E.
  split; [exact Es|]. split; [exact Hs|]. split; [exact L|]. split.
  { intros x Hx. apply Hev. apply kde_grid_within; [lia|exact Hx]. } split.
  { intros x Hx. apply Hout. intros Hw. apply Hx. apply (kde_grid_within low high n); [lia|exact Hw]. }
  intros i Hi. split; [|now apply H].
  apply (ns_table _ _ _ _ _ Hs i).
  - rewrite (nth_error_nth' _ 0) by (rewrite kde_grid_length; lia). rewrite kde_grid_nth by lia. reflexivity.
  - apply nth_error_nth'. lia.
Qed.
