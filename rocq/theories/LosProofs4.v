(** * Inserting a circle into a ring of rays. *)
From Coq Require Import Reals Lra Lia ZArith List Bool.
From Verif Require Import LosModel LosSpec LoopFacts LosProofs LosProofs2 LosProofs3 InterpProofs ShellProofs ShellModel.
Import List ListNotations.
Local Open Scope R_scope.

(** The insertions made for ray i of n. *)
Definition two_ops (cx cy r2 rho : R) (n i : nat) : list plateau :=
  match two_val_intr_dist (cx * cx + cy * cy) r2 (cy * cos (ring_phi n i) - cx * sin (ring_phi n i)) with
  | None => []
  | Some (lo, hi) => [(go_log lo, go_log hi, rho, i)]
  end.
Definition one_ops (cx cy r2 rho : R) (n i : nat) : list plateau :=
  [(None, go_log (one_val_intr_dist (cx * cx + cy * cy) r2 (cy * cos (ring_phi n i) - cx * sin (ring_phi n i))
      (cx * cos (ring_phi n i) + cy * sin (ring_phi n i))), rho, i)].

(** The directions stored in a halo are those of Init. *)
Definition rays_ok (h : Halo) : Prop :=
  (0 < h_n h)%nat /\ h_ringVecs h = map (fun i => (cos (ring_phi (h_n h) i), sin (ring_phi (h_n h) i))) (seq 0 (h_n h)) /\
  h_dPhi h = 1 / INR (h_n h) * (2 * PI).

Lemma rays_rd h i : rays_ok h -> (i < h_n h)%nat -> rd (h_ringVecs h) i = Some (cos (ring_phi (h_n h) i), sin (ring_phi (h_n h) i)).
Proof.
  intros (_ & -> & _) Hi. unfold rd. rewrite nth_error_map, nth_error_nth' with (d := O) by (rewrite seq_length; exact Hi).
  rewrite seq_nth by exact Hi. reflexivity.
Qed.

Lemma insert_two_ops h cx cy r2 rho i p : rays_ok h -> (i < h_n h)%nat ->
  insert_two h cx cy (cx * cx + cy * cy) r2 rho i p = inserts p (two_ops cx cy r2 rho (h_n h) i).
Proof.
  intros Hr Hi. unfold insert_two, two_ops. rewrite (rays_rd h i Hr Hi). cbn [fst snd].
  destruct (two_val_intr_dist _ _ _) as [(lo, hi)|]; [|reflexivity]. cbn [inserts].
  destruct (ring_insert _ _ _ _ _); reflexivity.
Qed.
Lemma insert_one_ops h cx cy r2 rho i p : rays_ok h -> (i < h_n h)%nat ->
  insert_one h cx cy (cx * cx + cy * cy) r2 rho i p = inserts p (one_ops cx cy r2 rho (h_n h) i).
Proof.
  intros Hr Hi. unfold insert_one, one_ops. rewrite (rays_rd h i Hr Hi). cbn [fst snd inserts].
  destruct (ring_insert _ _ _ _ _); reflexivity.
Qed.

Lemma loop_ops f body a m : (forall i p, (a <= i < a + m)%nat -> body i p = inserts p (f i)) ->
  forall p, loop m (fun k => body (a + k)%nat) p = inserts p (flat_map f (seq a m)).
Proof.
  induction m as [|m IH]; intros H p; [reflexivity|]. cbn [loop].
  rewrite IH by (intros; apply H; lia). rewrite seq_S, flat_map_app, inserts_app. cbn [flat_map]. rewrite app_nil_r.
  destruct (inserts p (flat_map f (seq a m))); [apply H; lia|reflexivity].
Qed.

Lemma zloop_ops f body lo hi n p : (0 <= lo)%Z -> (hi <= Z.of_nat n)%Z ->
  (forall i p, (i < n)%nat -> body i p = inserts p (f i)) ->
  zloop lo hi body p = inserts p (flat_map f (seq (Z.to_nat lo) (Z.to_nat (hi - lo)))).
Proof.
  intros H0 H1 H. unfold zloop. rewrite <- (loop_ops f body).
  - apply loop_ext. intros i t Hi. destruct (Z.ltb_spec (lo + Z.of_nat i) 0); [lia|]. f_equal. lia.
  - intros i q Hi. apply H. lia.
Qed.

(** Everything inserted for ray i carries index i. *)
Lemma density_flat f lo dr i j a m : (forall k o, In o (f k) -> snd o = k) ->
  density lo dr i j (flat_map f (seq a m)) = if (a <=? i)%nat && (i <? a + m)%nat then density lo dr i j (f i) else 0.
Proof.
  intros H. induction m as [|m IH].
  - cbn [seq flat_map density]. destruct (Nat.leb_spec a i), (Nat.ltb_spec i (a + 0)); cbn; try reflexivity; lia.
  - rewrite seq_S, flat_map_app, density_app, IH. cbn [flat_map]. rewrite app_nil_r.
    destruct (Nat.eq_dec (a + m) i) as [<-|Hne].
    + destruct (Nat.leb_spec a (a + m)), (Nat.ltb_spec (a + m) (a + m)), (Nat.ltb_spec (a + m) (a + S m)); cbn; try lia; ring.
    + rewrite (density_perm_index lo dr i j (f (a + m)%nat)) by (intros o Ho; rewrite (H _ _ Ho); exact Hne).
      destruct (Nat.leb_spec a i), (Nat.ltb_spec i (a + m)), (Nat.ltb_spec i (a + S m)); cbn; try lia; ring.
Qed.

Lemma go_log_ordered a b : a <= b -> ordered (go_log a) (go_log b).
Proof.
  intros H. unfold go_log, ordered. destruct (Rltb_spec 0 a); [|exact I]. destruct (Rltb_spec 0 b); [|lra].
  destruct H as [H|H]; [left; apply ln_increasing; lra|right; congruence].
Qed.

Lemma two_ops_ok cx cy r2 rho n i o : In o (two_ops cx cy r2 rho n i) -> snd o = i /\ (let '(s, e, _, _) := o in ordered s e).
Proof.
  unfold two_ops, two_val_intr_dist. cbv zeta. destruct (Rltb _ 0); [intros []|]. intros [<-|[]]. split; [reflexivity|].
  apply go_log_ordered. pose proof (sqrt_pos (r2 - (cy * cos (ring_phi n i) - cx * sin (ring_phi n i)) * (cy * cos (ring_phi n i) - cx * sin (ring_phi n i)))). lra.
Qed.

Lemma flat_ops_ok (f : nat -> list plateau) n a m : (forall i o, In o (f i) -> snd o = i /\ (let '(s, e, _, _) := o in ordered s e)) -> (a + m <= n)%nat ->
  ops_ok n (flat_map f (seq a m)).
Proof.
  intros H Hn. apply Forall_forall. intros (((s, e), rho), k) Ho. apply in_flat_map in Ho. destruct Ho as (i & Hi & Ho).
  apply in_seq in Hi. destruct (H _ _ Ho) as (E & Hord). cbn in E. subst k. split; [exact Hord|lia].
Qed.

(** ** The visited rays *)
Lemma ring_phi_range n i : (i < n)%nat -> 0 <= ring_phi n i < 2 * PI.
Proof.
  intros Hi. pose proof PI_RGT_0. unfold ring_phi. assert (INR i < INR n) by (apply lt_INR; exact Hi). pose proof (pos_INR i).
  assert (0 <= INR i / INR n) by (apply Rle_mult_inv_pos; lra).
  assert (INR i / INR n < 1) by (apply Rmult_lt_reg_r with (INR n); [lra|]; unfold Rdiv; rewrite Rmult_assoc, Rinv_l by lra; lra).
  split; nra.
Qed.

Lemma ring_phi_dphi n i : (0 < n)%nat -> ring_phi n i = INR i * (1 / INR n * (2 * PI)).
Proof. intros Hn. unfold ring_phi. assert (0 < INR n) by (apply lt_0_INR; exact Hn). field. lra. Qed.

Lemma trunc_le x (i : nat) w : 0 < w -> 0 <= x -> (Z.of_nat i <= Rtrunc (x / w))%Z <-> INR i * w <= x.
Proof.
  intros Hw Hx. assert (0 <= x / w) by (apply Rle_mult_inv_pos; lra). destruct (Rtrunc_pos (x / w) H) as (H0 & H1).
  assert (Ex : x = x / w * w) by (field; lra). rewrite INR_IZR_INZ. split; intros Hi.
  - apply IZR_le in Hi. rewrite Ex. apply Rmult_le_compat_r; lra.
  - assert (IZR (Z.of_nat i) <= x / w).
    { apply Rmult_le_reg_r with w; [lra|]. rewrite <- Ex. exact Hi. }
    assert (Z.of_nat i < Rtrunc (x / w) + 1)%Z; [|lia]. apply lt_IZR. rewrite plus_IZR. lra.
Qed.

Lemma trunc_ge x (i : nat) w : 0 < w -> 0 <= x -> (Rtrunc (x / w) <= Z.of_nat i)%Z <-> x - w < INR i * w.
Proof.
  intros Hw Hx. assert (0 <= x / w) by (apply Rle_mult_inv_pos; lra). destruct (Rtrunc_pos (x / w) H) as (H0 & H1).
  assert (Ex : x = x / w * w) by (field; lra). rewrite INR_IZR_INZ. split; intros Hi.
  - apply IZR_le in Hi. assert (x < (IZR (Z.of_nat i) + 1) * w); [|lra]. rewrite Ex. apply Rmult_lt_compat_r; lra.
  - assert (x / w < IZR (Z.of_nat i) + 1).
    { apply Rmult_lt_reg_r with w; [lra|]. rewrite <- Ex. lra. }
    assert (Rtrunc (x / w) < Z.of_nat i + 1)%Z; [|lia]. apply lt_IZR. rewrite plus_IZR. lra.
Qed.

Lemma trunc_neg x w : 0 < w -> x < 0 -> (Rtrunc (x / w) <= 0)%Z /\ ((0 <= Rtrunc (x / w))%Z <-> - w < x).
Proof.
  intros Hw Hx. assert (Ex : x = x / w * w) by (field; lra).
  assert (Hq : x / w < 0) by (unfold Rdiv; assert (0 < / w) by (apply Rinv_0_lt_compat; lra); nra).
  unfold Rtrunc. destruct (Rle_dec 0 (x / w)); [lra|]. destruct (base_Int_part (- (x / w))) as (H1 & H2).
  assert (0 <= Int_part (- (x / w)))%Z.
  { assert (-1 < Int_part (- (x / w)))%Z; [|lia]. apply lt_IZR. lra. }
  split; [lia|]. split; intros H3.
  - assert (E : Int_part (- (x / w)) = 0%Z) by lia. rewrite E in *. rewrite Ex. assert (-1 < x / w) by lra. nra.
  - assert (-1 < x / w). { apply Rmult_lt_reg_r with w; [lra|]. rewrite <- Ex. lra. }
    assert (Int_part (- (x / w)) < 1)%Z; [|lia]. apply lt_IZR. lra.
Qed.

Definition in_zrange (lo hi : Z) (i : nat) : bool := (lo <=? Z.of_nat i)%Z && (Z.of_nat i <? hi)%Z.

Lemma seq_zrange lo hi i : (0 <= lo)%Z -> ((Z.to_nat lo <=? i)%nat && (i <? Z.to_nat lo + Z.to_nat (hi - lo))%nat) = in_zrange lo hi i.
Proof.
  intros H0. unfold in_zrange. destruct (Nat.leb_spec (Z.to_nat lo) i), (Z.leb_spec lo (Z.of_nat i)); lia.
Qed.

(** The index ranges in terms of angles. *)
Section Visits.
Variables (h : Halo) (cx cy r2 : R).
Hypothesis Hh : rays_ok h.
Hypothesis Hr : 0 < r2.
Hypothesis Hd : r2 <= cx * cx + cy * cy.
Let n := h_n h.
Let P := atan2 cy cx.
Let alpha := half_angular_width (cx * cx + cy * cy) r2.
Let w := 1 / INR n * (2 * PI).

Lemma w_pos : 0 < w /\ INR n * w = 2 * PI.
Proof.
  destruct Hh as (Hn & _). assert (0 < INR n) by (apply lt_0_INR; exact Hn). pose proof PI_RGT_0. unfold w.
  split; [|field; lra]. apply Rmult_lt_0_compat; [apply Rdiv_lt_0_compat; lra|lra].
Qed.

Lemma visits lo1 hi1 lo2 hi2 : idx_range h (P - alpha) (P + alpha) = (lo1, hi1, lo2, hi2) ->
  (0 <= lo1)%Z /\ (hi1 <= Z.of_nat n)%Z /\ (0 <= lo2)%Z /\ (hi2 <= Z.of_nat n)%Z /\
  forall i, (i < n)%nat -> 
    (0 <= P - alpha -> (in_zrange lo1 hi1 i = true <-> P - alpha - w < ring_phi n i <= P + alpha) /\ in_zrange lo2 hi2 i = false) /\
    (P - alpha < 0 -> (in_zrange lo1 hi1 i = true <-> P - alpha + 2 * PI - w < ring_phi n i) /\
       (in_zrange lo2 hi2 i = true <-> (0 <= P + alpha /\ ring_phi n i <= P + alpha) \/ (P + alpha < 0 /\ - w < P + alpha /\ i = O))).
Proof.
  pose proof (P_range cx cy r2 Hr Hd) as HP. fold P in HP. pose proof (alpha_range cx cy r2 Hr Hd) as Ha. fold alpha in Ha.
  pose proof PI_RGT_0. destruct w_pos as (Hw & Hnw). unfold idx_range. destruct Hh as (Hn & Hv & Hdp). rewrite Hdp. fold n. fold w.
  fold n in Hn.
  destruct (Rltb_spec (2 * PI) (P + alpha)); [lra|].
  destruct (Rltb_spec (P - alpha) 0) as [Hneg|Hpos]; intros E; injection E as <- <- <- <-.
  - assert (0 <= P - alpha + 2 * PI) by lra.
    assert (Hup : (Rtrunc ((P + alpha) / w) + 1 <= Z.of_nat n)%Z).
    { destruct (Rle_dec 0 (P + alpha)).
      - destruct (Rtrunc_pos ((P + alpha) / w)) as (_ & Ht); [apply Rle_mult_inv_pos; lra|].
        assert (Rtrunc ((P + alpha) / w) < Z.of_nat n)%Z; [|lia]. apply lt_IZR. rewrite <- INR_IZR_INZ.
        apply Rle_lt_trans with ((P + alpha) / w); [lra|]. apply Rmult_lt_reg_r with w; [lra|].
        unfold Rdiv. rewrite Rmult_assoc, Rinv_l by lra. lra.
      - destruct (trunc_neg (P + alpha) w Hw) as (Ht & _); [lra|]. lia. }
    split; [|split; [lia|split; [lia|split; [exact Hup|]]]].
    + destruct (Rtrunc_pos ((P - alpha + 2 * PI) / w)) as (Ht & _); [apply Rle_mult_inv_pos; lra|exact Ht].
    + intros i Hi. split; [intros; lra|]. intros _. unfold in_zrange. rewrite !andb_true_iff, !Z.leb_le, !Z.ltb_lt.
      rewrite trunc_ge by assumption. rewrite (ring_phi_dphi n i Hn). fold w. split; [split; [intros (A & _); exact A|intros A; split; [exact A|lia]]|].
      assert (Z.of_nat i < Rtrunc ((P + alpha) / w) + 1 <-> Z.of_nat i <= Rtrunc ((P + alpha) / w))%Z as -> by lia.
      destruct (Rle_dec 0 (P + alpha)) as [Hp|Hp].
      * rewrite trunc_le by assumption. split; [intros (_ & A); left; auto|intros [(_ & A)|(A & _)]; [split; [lia|exact A]|lra]].
      * destruct (trunc_neg (P + alpha) w Hw) as (Ht & Ht'); [lra|]. split.
        -- intros (_ & A). right. split; [lra|]. split; [apply Ht'; lia|lia].
        -- intros [(A & _)|(_ & A & ->)]; [lra|]. split; [lia|]. apply Ht' in A. exact A.
  - apply Rnot_lt_le in Hpos.
    split; [destruct (Rtrunc_pos ((P - alpha) / w)) as (Ht & _); [apply Rle_mult_inv_pos; lra|exact Ht]|].
    split; [|split; [lia|split; [lia|]]].
    + destruct (Rtrunc_pos ((P + alpha) / w)) as (_ & Ht); [apply Rle_mult_inv_pos; lra|].
      assert (Rtrunc ((P + alpha) / w) < Z.of_nat n)%Z; [|lia]. apply lt_IZR. rewrite <- INR_IZR_INZ.
      apply Rle_lt_trans with ((P + alpha) / w); [lra|]. apply Rmult_lt_reg_r with w; [lra|].
      unfold Rdiv. rewrite Rmult_assoc, Rinv_l by lra. lra.
    + intros i Hi. split; [|intros; lra]. intros _. unfold in_zrange. rewrite !andb_true_iff, !Z.leb_le, !Z.ltb_lt.
      rewrite trunc_ge by assumption. rewrite (ring_phi_dphi n i Hn). fold w.
      assert (Z.of_nat i < Rtrunc ((P + alpha) / w) + 1 <-> Z.of_nat i <= Rtrunc ((P + alpha) / w))%Z as -> by lia.
      rewrite trunc_le by lra. split; [reflexivity|]. destruct (Z.leb_spec 0 (Z.of_nat i)), (Z.ltb_spec (Z.of_nat i) 0); try reflexivity; lia.
Qed.

(** How often ray i is visited. *)
Definition visit_count (i : nat) : nat :=
  let '(lo1, hi1, lo2, hi2) := idx_range h (P - alpha) (P + alpha) in
  ((if in_zrange lo1 hi1 i then 1 else 0) + (if in_zrange lo2 hi2 i then 1 else 0))%nat.

(** A ray that meets the circle is visited exactly once if there are at least two rays. *)
Lemma hit_once i : (2 <= n)%nat -> (i < n)%nat ->
  0 < cx * cos (ring_phi n i) + cy * sin (ring_phi n i) ->
  (cy * cos (ring_phi n i) - cx * sin (ring_phi n i)) * (cy * cos (ring_phi n i) - cx * sin (ring_phi n i)) <= r2 ->
  visit_count i = 1%nat.
Proof.
  intros Hn Hi H1 H2. pose proof (ring_phi_range n i Hi) as Hphi.
  pose proof (hit_angle cx cy r2 Hr Hd (ring_phi n i) Hphi H1 H2) as Hang. fold P alpha in Hang.
  pose proof (P_range cx cy r2 Hr Hd) as HP. fold P in HP. pose proof (alpha_range cx cy r2 Hr Hd) as Ha. fold alpha in Ha.
  destruct w_pos as (Hw & Hnw). pose proof PI_RGT_0.
  assert (Hw' : w <= PI). { assert (INR 2 <= INR n) by (apply le_INR; exact Hn). cbn [INR] in *. nra. }
  unfold visit_count. destruct (idx_range h (P - alpha) (P + alpha)) as (((lo1, hi1), lo2), hi2) eqn:E.
  destruct (visits _ _ _ _ E) as (_ & _ & _ & _ & V). destruct (V i Hi) as (V1 & V2).
  destruct (Rle_dec 0 (P - alpha)) as [Hp|Hp].
  - destruct (V1 Hp) as (A & B). rewrite B. rewrite (proj2 A) by lra. reflexivity.
  - apply Rnot_le_lt in Hp. destruct (V2 Hp) as (A & B).
    assert (Hi0 : i = O -> ring_phi n i = 0).
    { intros ->. unfold ring_phi. cbn [INR]. unfold Rdiv. ring. }
    destruct Hang as [Hang|Hang].
    + rewrite (proj2 B) by (left; lra). destruct (in_zrange lo1 hi1 i) eqn:E1; [|reflexivity].
      clear E1; pose proof (proj1 A eq_refl) as E1. lra.
    + rewrite (proj2 A) by lra. destruct (in_zrange lo2 hi2 i) eqn:E1; [|reflexivity].
      clear E1; pose proof (proj1 B eq_refl) as E1. destruct E1 as [E1|(E1 & E2 & E3)]; [lra|]. rewrite (Hi0 E3) in *. lra.
Qed.

(** Under these conditions no visited ray points away from a circle that its backward extension meets. *)
Lemma no_ghost i : (i < n)%nat -> 2 * alpha + w <= PI -> (0 <= P \/ alpha - PI < P) ->
  cx * cos (ring_phi n i) + cy * sin (ring_phi n i) < 0 ->
  (cy * cos (ring_phi n i) - cx * sin (ring_phi n i)) * (cy * cos (ring_phi n i) - cx * sin (ring_phi n i)) <= r2 ->
  visit_count i = 0%nat.
Proof.
  intros Hi HB HA H1 H2. pose proof (ring_phi_range n i Hi) as Hphi.
  destruct (ghost_angle cx cy r2 Hr Hd (ring_phi n i) H1 H2) as (G1 & G2). fold P alpha in G1, G2.
  pose proof (P_range cx cy r2 Hr Hd) as HP. fold P in HP. pose proof (alpha_range cx cy r2 Hr Hd) as Ha. fold alpha in Ha.
  destruct w_pos as (Hw & Hnw). pose proof PI_RGT_0.
  unfold visit_count. destruct (idx_range h (P - alpha) (P + alpha)) as (((lo1, hi1), lo2), hi2) eqn:E.
  destruct (visits _ _ _ _ E) as (_ & _ & _ & _ & V). destruct (V i Hi) as (V1 & V2).
  assert (Hi0 : i = O -> ring_phi n i = 0).
  { intros ->. unfold ring_phi. cbn [INR]. unfold Rdiv. ring. }
  destruct (Rle_dec 0 (P - alpha)) as [Hp|Hp].
  - destruct (V1 Hp) as (A & B). rewrite B. destruct (in_zrange lo1 hi1 i) eqn:E1; [|reflexivity].
    clear E1; pose proof (proj1 A eq_refl) as E1. exfalso. apply G1. lra.
  - apply Rnot_le_lt in Hp. destruct (V2 Hp) as (A & B).
    destruct (in_zrange lo1 hi1 i) eqn:E1.
    + clear E1; pose proof (proj1 A eq_refl) as E1. exfalso. apply G2. destruct HA; lra.
    + destruct (in_zrange lo2 hi2 i) eqn:E2; [|reflexivity]. exfalso.
      clear E2; pose proof (proj1 B eq_refl) as E2. apply G1. destruct E2 as [E2|(E2 & E3 & E4)]; [lra|]. rewrite (Hi0 E4). destruct HA; lra.
Qed.

(** The rays in the lower half plane are all visited when the circle's centre is there and the circle is below the x axis
    or crosses its negative half. *)
Lemma ghost_visited i : (i < n)%nat -> P < - alpha -> P - alpha + 2 * PI <= ring_phi n i -> (1 <= visit_count i)%nat.
Proof.
  intros Hi HP H1. destruct w_pos as (Hw & Hnw). pose proof (alpha_range cx cy r2 Hr Hd) as Ha. fold alpha in Ha.
  unfold visit_count. destruct (idx_range h (P - alpha) (P + alpha)) as (((lo1, hi1), lo2), hi2) eqn:E.
  destruct (visits _ _ _ _ E) as (_ & _ & _ & _ & V). destruct (V i Hi) as (V1 & V2).
  destruct V2 as (A & B); [lra|]. rewrite (proj2 A) by lra. lia.
Qed.
End Visits.
