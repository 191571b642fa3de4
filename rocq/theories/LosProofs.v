(** * Proofs about profile rings. *)
From Coq Require Import Reals Lra Lia ZArith List Bool.
From Verif Require Import LosModel LosSpec LoopFacts InterpProofs ShellProofs.
Import List ListNotations.
Local Open Scope R_scope.

(** Case analysis on the innermost comparisons of the goal. *)
Ltac rcase := repeat match goal with |- context [Rle_dec ?a ?b] =>
  lazymatch a with context [Rle_dec] => fail | _ => lazymatch b with context [Rle_dec] => fail | _ => destruct (Rle_dec a b) end end end.

(** Sum of the first m elements of the row that starts at offset off. *)
Fixpoint rowsum (d : list R) (off m : nat) : R :=
  match m with O => 0 | S k => rowsum d off k + nth (off + k) d 0 end.

Lemma add_at_spec d k v : (k < length d)%nat ->
  exists d', add_at d (Z.of_nat k) v = Some d' /\ length d' = length d /\
    forall m, nth m d' 0 = nth m d 0 + (if (m =? k)%nat then v else 0).
Proof.
  intros Hk. unfold add_at. destruct (Z.ltb_spec (Z.of_nat k) 0); [lia|]. rewrite Nat2Z.id.
  rewrite (rd_nth _ _ 0 Hk). destruct (wr_some d k (nth k d 0 + v) 0 Hk) as (d' & E & L & N).
  exists d'. split; [exact E|]. split; [exact L|]. intros m. rewrite N.
  destruct (m =? k)%nat eqn:Em; [apply Nat.eqb_eq in Em; subst; lra|lra].
Qed.

Lemma rowsum_add d d' k v off m : (forall q, nth q d' 0 = nth q d 0 + (if (q =? k)%nat then v else 0)) ->
  rowsum d' off m = rowsum d off m + (if (off <=? k)%nat && (k <? off + m)%nat then v else 0).
Proof.
  intros H. induction m as [|m IH]; cbn [rowsum].
  - destruct (Nat.leb_spec off k), (Nat.ltb_spec k (off + 0)); cbn; try lra; lia.
  - rewrite IH, H. destruct (Nat.leb_spec off k), (Nat.ltb_spec k (off + m)), (Nat.ltb_spec k (off + S m)),
      (Nat.eqb_spec (off + m) k); cbn; try lra; lia.
Qed.

Lemma row_in i i' k bins m : (k < bins)%nat -> (m <= bins)%nat ->
  ((i' * bins <=? i * bins + k)%nat && (i * bins + k <? i' * bins + m)%nat) = ((i' =? i)%nat && (k <? m)%nat).
Proof.
  intros Hk Hm. destruct (Nat.eqb_spec i' i) as [->|Hne].
  - destruct (Nat.leb_spec (i * bins) (i * bins + k)); [|lia].
    destruct (Nat.ltb_spec (i * bins + k) (i * bins + m)), (Nat.ltb_spec k m); cbn; try lia; reflexivity.
  - cbn. apply andb_false_iff. destruct (Nat.lt_ge_cases i i').
    + left. apply Nat.leb_gt. nia.
    + right. apply Nat.ltb_ge. nia.
Qed.

Definition good (p : Ring) : Prop :=
  (0 < p_bins p)%nat /\ length (p_derivs p) = (p_bins p * p_n p)%nat /\ p_lowR p < p_highR p /\
  p_dr p = (p_highR p - p_lowR p) / INR (p_bins p).

Lemma good_dr p : good p -> 0 < p_dr p /\ p_highR p = p_lowR p + INR (p_bins p) * p_dr p.
Proof.
  intros (Hb & _ & Hl & ->). assert (0 < INR (p_bins p)) by (apply lt_0_INR; lia).
  split; [apply Rdiv_lt_0_compat; lra|field; lra].
Qed.

(** Height above bin j of a unit step that begins at q (in bin units). *)
Definition step (q : R) (j : nat) : R := Rmax 0 (Rmin 1 (INR (S j) - q)).

Lemma trunc_bin q bins : 0 <= q < INR bins ->
  exists k, Rtrunc q = Z.of_nat k /\ (k < bins)%nat /\ INR k <= q < INR k + 1.
Proof.
  intros Hq. destruct (Rtrunc_pos q) as (H0 & H1); [lra|]. exists (Z.to_nat (Rtrunc q)).
  rewrite Z2Nat.id by lia. split; [reflexivity|].
  assert (E : IZR (Rtrunc q) = INR (Z.to_nat (Rtrunc q))) by (rewrite INR_IZR_INZ, Z2Nat.id by lia; reflexivity).
  rewrite E in H1. split; [|lra]. apply INR_lt. lra.
Qed.

Lemma ring_edge_spec p x rho i d : good p -> (i < p_n p)%nat -> length d = length (p_derivs p) ->
  p_lowR p < x < p_highR p ->
  exists d', ring_edge p x rho i d = Some d' /\ length d' = length d /\
    forall i' j, (j < p_bins p)%nat -> rowsum d' (i' * p_bins p) (S j) =
      rowsum d (i' * p_bins p) (S j) + (if (i' =? i)%nat then rho * step ((x - p_lowR p) / p_dr p) j else 0).
Proof.
  intros G Hi Hd Hx. destruct (good_dr p G) as (Hdr & Hhi). destruct G as (Hb & Hlen & _ & _).
  unfold ring_edge. set (q := (x - p_lowR p) / p_dr p).
  assert (Hq : 0 <= q < INR (p_bins p)).
  { unfold q. split; [apply Rle_mult_inv_pos; lra|]. apply Rmult_lt_reg_r with (p_dr p); [lra|].
    unfold Rdiv. rewrite Rmult_assoc, Rinv_l by lra. lra. }
  clearbody q. destruct (trunc_bin q _ Hq) as (k & Ek & Hk & Hqk). rewrite Ek.
  replace (Z.of_nat (i * p_bins p) + Z.of_nat k)%Z with (Z.of_nat (i * p_bins p + k)) by lia.
  assert (Hik : (i * p_bins p + k < length d)%nat) by (rewrite Hd, Hlen; nia).
  rewrite <- INR_IZR_INZ. set (rem := q - INR k).
  destruct (add_at_spec d (i * p_bins p + k) (rho * (1 - rem)) Hik) as (d1 & E1 & L1 & N1). rewrite E1.
  assert (R1 : forall i' j, (j < p_bins p)%nat -> rowsum d1 (i' * p_bins p) (S j) = rowsum d (i' * p_bins p) (S j) +
     (if (i' =? i)%nat && (k <? S j)%nat then rho * (1 - rem) else 0)).
  { intros i' j Hj. rewrite (rowsum_add _ _ _ _ _ _ N1), row_in by lia. reflexivity. }
  destruct (Z.ltb_spec (Z.of_nat k) (Z.of_nat (p_bins p) - 1)) as [Hlt|Hge].
  - replace (Z.of_nat (i * p_bins p + k) + 1)%Z with (Z.of_nat (i * p_bins p + S k)) by lia.
    assert (Hik' : (i * p_bins p + S k < length d1)%nat) by (rewrite L1, Hd, Hlen; nia).
    destruct (add_at_spec d1 _ (rho * rem) Hik') as (d2 & E2 & L2 & N2). rewrite E2.
    exists d2. split; [reflexivity|]. split; [congruence|]. intros i' j Hj.
    rewrite (rowsum_add _ _ _ _ _ _ N2), row_in, R1 by lia.
    destruct (i' =? i)%nat; cbn [andb]; [|lra].
    unfold step. subst rem. rewrite S_INR.
    destruct (Nat.ltb_spec k (S j)), (Nat.ltb_spec (S k) (S j)); try lia.
    + assert (INR (S k) <= INR j) by (apply le_INR; lia). rewrite S_INR in *.
      rewrite Rmin_left, Rmax_right by lra. ring.
    + replace j with k by lia. rewrite Rmin_right, Rmax_right by lra. ring.
    + assert (INR (S j) <= INR k) by (apply le_INR; lia). rewrite S_INR in *.
      rewrite Rmin_right, Rmax_left by lra. ring.
  - exists d1. split; [reflexivity|]. split; [congruence|]. intros i' j Hj. rewrite R1 by lia.
    destruct (i' =? i)%nat; cbn [andb]; [|lra]. unfold step. subst rem. rewrite S_INR.
    destruct (Nat.ltb_spec k (S j)).
    + replace j with k by lia. rewrite Rmin_right, Rmax_right by lra. ring.
    + assert (INR (S j) <= INR k) by (apply le_INR; lia). rewrite S_INR in *.
      rewrite Rmin_right, Rmax_left by lra. ring.
Qed.

Lemma add_first_spec p rho i d : good p -> (i < p_n p)%nat -> length d = length (p_derivs p) ->
  exists d', add_at d (Z.of_nat (i * p_bins p)) rho = Some d' /\ length d' = length d /\
    forall i' j, (j < p_bins p)%nat -> rowsum d' (i' * p_bins p) (S j) =
      rowsum d (i' * p_bins p) (S j) + (if (i' =? i)%nat then rho else 0).
Proof.
  intros (Hb & Hlen & _ & _) Hi Hd.
  destruct (add_at_spec d (i * p_bins p) rho) as (d1 & E1 & L1 & N1); [rewrite Hd, Hlen; nia|].
  exists d1. split; [exact E1|]. split; [exact L1|]. intros i' j Hj. rewrite (rowsum_add _ _ _ _ _ _ N1).
  pose proof (row_in i i' 0 (p_bins p) (S j) Hb Hj) as E. rewrite Nat.add_0_r in E. rewrite E.
  destruct (i' =? i)%nat; cbn; lra.
Qed.

Lemma covered_step s e lo dr j : 0 < dr -> s <= e ->
  covered (Some s) (Some e) (lo + INR j * dr) (lo + INR (S j) * dr) / dr = step ((s - lo) / dr) j - step ((e - lo) / dr) j.
Proof.
  intros Hdr Hse. apply Rmult_eq_reg_r with dr; [|lra]. unfold Rdiv at 1. rewrite Rmult_assoc, Rinv_l, Rmult_1_r by lra.
  assert (G : forall x, step ((x - lo) / dr) j * dr = Rmax 0 (Rmin dr (lo + INR (S j) * dr - x))).
  { intros x. unfold step. assert (E : INR (S j) - (x - lo) / dr = (lo + INR (S j) * dr - x) / dr) by (field; lra). rewrite E.
    set (y := lo + INR (S j) * dr - x). clearbody y. clear E.
    unfold Rmin, Rmax.
    assert (Ey : y = y / dr * dr) by (field; lra). set (z := y / dr) in *. clearbody z. subst y.
    destruct (Rle_dec 1 z), (Rle_dec dr (z * dr)); try (exfalso; nra);
      destruct (Rle_dec 0 1), (Rle_dec 0 dr), (Rle_dec 0 z), (Rle_dec 0 (z * dr)); try lra; try (exfalso; nra); try nra. }
  rewrite Rmult_minus_distr_r, !G. unfold covered. rewrite S_INR.
  replace (lo + (INR j + 1) * dr) with (lo + INR j * dr + dr) by ring. set (L := lo + INR j * dr). clearbody L.
  unfold Rmin, Rmax. rcase; lra.
Qed.

Lemma step_below q j : q <= 0 -> step q j = 1.
Proof.
  intros H. unfold step. rewrite S_INR. pose proof (pos_INR j). rewrite Rmin_left, Rmax_right by lra. reflexivity.
Qed.
Lemma step_above q j bins : (j < bins)%nat -> INR bins <= q -> step q j = 0.
Proof.
  intros Hj H. unfold step. apply lt_INR in Hj as Hj'. assert (INR (S j) <= INR bins) by (apply le_INR; lia).
  rewrite Rmin_right, Rmax_left by lra. reflexivity.
Qed.

(** Insert with an extended interval: the effect on every bin of every profile. *)
Theorem ring_insert_spec p start stop rho i : good p -> (i < p_n p)%nat -> ordered start stop ->
  exists p', ring_insert p start stop rho i = Some p' /\ good p' /\ p_bins p' = p_bins p /\ p_n p' = p_n p /\
    p_lowR p' = p_lowR p /\ p_highR p' = p_highR p /\ p_dr p' = p_dr p /\
    forall i' j, (j < p_bins p)%nat -> rowsum (p_derivs p') (i' * p_bins p) (S j) = rowsum (p_derivs p) (i' * p_bins p) (S j) +
      (if (i' =? i)%nat then rho * (covered start stop (p_lowR p + INR j * p_dr p) (p_lowR p + INR (S j) * p_dr p) / p_dr p) else 0).
Proof.
  intros G Hi Hord. destruct (good_dr p G) as (Hdr & Hhi). unfold ring_insert.
  assert (Hbin : forall j, (j < p_bins p)%nat -> p_lowR p <= p_lowR p + INR j * p_dr p /\
    p_lowR p + INR j * p_dr p <= p_lowR p + INR (S j) * p_dr p <= p_highR p).
  { intros j Hj. rewrite Hhi, S_INR. pose proof (pos_INR j). assert (INR (S j) <= INR (p_bins p)) by (apply le_INR; lia).
    rewrite S_INR in *. split; [nra|]. split; [nra|]. apply Rplus_le_compat_l. apply Rmult_le_compat_r; lra. }
  destruct stop as [e|]; cbn [orb].
  2:{ exists p. destruct start; [destruct Hord|]. repeat split; try apply G. intros i' j Hj. cbn [covered].
      unfold Rdiv. destruct (i' =? i)%nat; ring. }
  destruct (Rleb_spec e (p_lowR p)) as [He|He]; cbn [orb].
  { exists p. repeat split; try apply G. intros i' j Hj. destruct (Hbin j Hj) as (B1 & B2).
    destruct (i' =? i)%nat; [|ring].
    assert (covered start (Some e) (p_lowR p + INR j * p_dr p) (p_lowR p + INR (S j) * p_dr p) = 0) as ->.
    { destruct start as [s|]; cbn [covered]; unfold Rmax, Rmin;
      rcase; try lra. }
    unfold Rdiv; ring. }
  set (out := match start with Some s => Rleb (p_highR p) s | None => false end).
  destruct out eqn:Eo.
  { subst out. destruct start as [s|]; [|discriminate]. apply Rleb_true in Eo.
    exists p. repeat split; try apply G. intros i' j Hj. destruct (Hbin j Hj) as (B1 & B2).
    destruct (i' =? i)%nat; [|ring].
    assert (covered (Some s) (Some e) (p_lowR p + INR j * p_dr p) (p_lowR p + INR (S j) * p_dr p) = 0) as ->.
    { cbn [covered]; unfold Rmax, Rmin;
      rcase; try lra. }
    unfold Rdiv; ring. }
  assert (S1 : exists d1, match start with
           | Some s => if Rltb (p_lowR p) s then ring_edge p s rho i (p_derivs p)
                       else add_at (p_derivs p) (Z.of_nat (i * p_bins p)) rho
           | None => add_at (p_derivs p) (Z.of_nat (i * p_bins p)) rho
           end = Some d1 /\ length d1 = length (p_derivs p) /\
     forall i' j, (j < p_bins p)%nat -> rowsum d1 (i' * p_bins p) (S j) = rowsum (p_derivs p) (i' * p_bins p) (S j) +
       (if (i' =? i)%nat then rho * match start with Some s => step ((s - p_lowR p) / p_dr p) j | None => 1 end else 0)).
  { destruct start as [s|].
    - destruct (Rltb_spec (p_lowR p) s) as [Hs|Hs].
      + apply ring_edge_spec; auto. subst out. apply Rleb_false in Eo. lra.
      + destruct (add_first_spec p rho i (p_derivs p) G Hi eq_refl) as (d1 & E & L & N).
        exists d1. split; [exact E|]. split; [exact L|]. intros i' j Hj. rewrite N by exact Hj.
        rewrite step_below; [destruct (i' =? i)%nat; ring|].
        apply Rnot_lt_le in Hs. unfold Rdiv. assert (0 < / p_dr p) by (apply Rinv_0_lt_compat; lra). nra.
    - destruct (add_first_spec p rho i (p_derivs p) G Hi eq_refl) as (d1 & E & L & N).
      exists d1. split; [exact E|]. split; [exact L|]. intros i' j Hj. rewrite N by exact Hj.
      destruct (i' =? i)%nat; ring. }
  destruct S1 as (d1 & -> & L1 & N1).
  assert (S2 : exists d2, (if Rltb e (p_highR p) then ring_edge p e (- rho) i d1 else Some d1) = Some d2 /\ length d2 = length d1 /\
     forall i' j, (j < p_bins p)%nat -> rowsum d2 (i' * p_bins p) (S j) = rowsum d1 (i' * p_bins p) (S j) -
       (if (i' =? i)%nat then rho * step ((e - p_lowR p) / p_dr p) j else 0)).
  { destruct (Rltb_spec e (p_highR p)) as [Hs|Hs].
    - destruct (ring_edge_spec p e (- rho) i d1 G Hi L1) as (d2 & E & L & N); [apply Rnot_le_lt in He; lra|].
      exists d2. split; [exact E|]. split; [exact L|]. intros i' j Hj. rewrite N by exact Hj. destruct (i' =? i)%nat; ring.
    - exists d1. split; [reflexivity|]. split; [reflexivity|]. intros i' j Hj.
      rewrite (step_above _ j (p_bins p) Hj); [destruct (i' =? i)%nat; ring|].
      apply Rmult_le_reg_r with (p_dr p); [lra|]. unfold Rdiv. rewrite Rmult_assoc, Rinv_l by lra. lra. }
  destruct S2 as (d2 & -> & L2 & N2).
  eexists. split; [reflexivity|]. cbn [p_bins p_n p_lowR p_highR p_dr p_derivs].
  split; [destruct G as (? & ? & ? & ?); repeat split; cbn [p_bins p_n p_lowR p_highR p_dr p_derivs]; auto; congruence|].
  repeat split. intros i' j Hj. rewrite N2, N1 by exact Hj. destruct (i' =? i)%nat; [|ring].
  destruct start as [s|].
  - rewrite covered_step by (cbn in Hord; lra). ring.
  - assert (E : covered None (Some e) (p_lowR p + INR j * p_dr p) (p_lowR p + INR (S j) * p_dr p) =
      covered (Some (p_lowR p)) (Some e) (p_lowR p + INR j * p_dr p) (p_lowR p + INR (S j) * p_dr p)).
    { cbn [covered]. destruct (Hbin j Hj) as (B1 & _). rewrite (Rmax_right (p_lowR p)) by lra. reflexivity. }
    rewrite E, covered_step by (apply Rnot_le_lt in He; lra).
    rewrite (step_below ((p_lowR p - p_lowR p) / p_dr p)); [ring|]. unfold Rdiv. rewrite Rminus_diag_eq by reflexivity. lra.
Qed.

(** Retrieve writes the row sums. *)
Lemma ring_retrieve_spec p i out : good p -> (i < p_n p)%nat -> (p_bins p <= length out)%nat ->
  exists out', ring_retrieve p i out = Some out' /\ length out' = length out /\
    (forall j, (j < p_bins p)%nat -> nth j out' 0 = rowsum (p_derivs p) (i * p_bins p) (S j)) /\
    (forall j, (p_bins p <= j)%nat -> nth j out' 0 = nth j out 0).
Proof.
  intros (Hb & Hlen & _ & _) Hi Hout. unfold ring_retrieve.
  destruct (loop_inv (fun m (st : R * list R) => fst st = rowsum (p_derivs p) (i * p_bins p) m /\ length (snd st) = length out /\
     (forall j, (j < m)%nat -> nth j (snd st) 0 = rowsum (p_derivs p) (i * p_bins p) (S j)) /\
     (forall j, (m <= j)%nat -> nth j (snd st) 0 = nth j out 0)) (p_bins p)
     (fun j (st : R * list R) => let '(sum, out) := st in
       do d <- rd (p_derivs p) (j + p_bins p * i); do out' <- wr out j (sum + d); Some (sum + d, out')) (0, out))
    as (st & E & I1 & I2 & I3 & I4).
  - cbn. repeat split; auto. intros; lia.
  - intros m (sum, o) Hm (I1 & I2 & I3 & I4). cbn [fst snd] in *.
    rewrite (rd_nth _ _ 0) by nia.
    destruct (wr_some o m (sum + nth (m + p_bins p * i) (p_derivs p) 0) 0) as (o' & E' & L' & N'); [lia|].
    rewrite E'. eexists. split; [reflexivity|]. cbn [fst snd rowsum].
    replace (i * p_bins p + m)%nat with (m + p_bins p * i)%nat by lia.
    split; [rewrite I1; reflexivity|]. split; [congruence|]. split.
    + intros j Hj. rewrite N'. destruct (Nat.eqb_spec j m) as [->|Hne].
      * cbn [rowsum]. rewrite I1. replace (i * p_bins p + m)%nat with (m + p_bins p * i)%nat by lia. reflexivity.
      * rewrite I3 by lia. reflexivity.
    + intros j Hj. rewrite N'. destruct (Nat.eqb_spec j m) as [->|Hne]; [lia|]. apply I4; lia.
  - rewrite E. exists (snd st). auto.
Qed.
