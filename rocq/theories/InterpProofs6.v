(** * The curve a Spline evaluates: gluing, derivatives, integral. *)
From Coq Require Import Lra Psatz.
From Verif Require Import GoBase RealBase InterpModel InterpSpec InterpProofs InterpProofs2 InterpProofs3 InterpProofs4 InterpProofs5.
Local Open Scope R_scope.
Local Open Scope list_scope.

Lemma dl_eq f x l l' : derivable_pt_lim f x l -> l = l' -> derivable_pt_lim f x l'.
Proof. intros H <-. exact H. Qed.
Lemma dplus f g x l m : derivable_pt_lim f x l -> derivable_pt_lim g x m -> derivable_pt_lim (fun y => f y + g y) x (l + m).
Proof. intros. apply (derivable_pt_lim_plus f g); assumption. Qed.
Lemma dminus f g x l m : derivable_pt_lim f x l -> derivable_pt_lim g x m -> derivable_pt_lim (fun y => f y - g y) x (l - m).
Proof. intros. apply (derivable_pt_lim_minus f g); assumption. Qed.
Lemma dmult f g x l m : derivable_pt_lim f x l -> derivable_pt_lim g x m -> derivable_pt_lim (fun y => f y * g y) x (l * g x + f x * m).
Proof. intros. apply (derivable_pt_lim_mult f g); assumption. Qed.
Lemma dconst c x : derivable_pt_lim (fun _ => c) x 0.
Proof. apply (derivable_pt_lim_const c). Qed.
Lemma did x : derivable_pt_lim (fun y => y) x 1.
Proof. apply derivable_pt_lim_id. Qed.
Ltac derive := eapply dl_eq; [repeat first [apply dconst | apply did | eapply dplus | eapply dminus | eapply dmult] |].

Lemma poly_deriv c k a x : derivable_pt_lim (fun y => poly c k (y - a)) x (poly c (S k) (x - a)).
Proof. destruct k as [|[|[|[|k]]]]; cbn [poly]; derive; cbv beta; try ring. Qed.

Lemma dl_ext_loc f g x l d : 0 < d -> (forall y, Rabs (y - x) < d -> f y = g y) -> derivable_pt_lim f x l -> derivable_pt_lim g x l.
Proof.
  intros Hd He Hf eps Heps. destruct (Hf eps Heps) as [dl Hdl].
  assert (Hm : 0 < Rmin d dl) by (apply Rmin_pos; [exact Hd|apply cond_pos]).
  exists (mkposreal _ Hm). intros h Hh Hlt. cbn in Hlt.
  rewrite <- (He (x + h)), <- (He x).
  - apply Hdl; [exact Hh|]. apply Rlt_le_trans with (1 := Hlt). apply Rmin_r.
  - rewrite Rminus_diag_eq, Rabs_R0 by reflexivity. exact Hd.
  - replace (x + h - x) with h by ring. apply Rlt_le_trans with (1 := Hlt). apply Rmin_l.
Qed.

(** x is on the first side of the knot b. *)
Definition before (incr : bool) (x b : R) : bool := if incr then Rleb x b else Rleb b x.
Lemma before_true incr x b : before incr x b = true <-> (if incr then x <= b else b <= x).
Proof. destruct incr; cbn; apply Rleb_true. Qed.
Lemma before_false incr x b : before incr x b = false <-> (if incr then b < x else x < b).
Proof. destruct incr; cbn; apply Rleb_false. Qed.

Lemma glue_deriv incr b f g x l m : (x = b -> f b = g b) -> (x = b -> l = m) -> (before incr x b = true -> derivable_pt_lim f x l) ->
  (before incr x b = false \/ x = b -> derivable_pt_lim g x m) ->
  derivable_pt_lim (fun y => if before incr y b then f y else g y) x (if before incr x b then l else m).
Proof.
  intros Efg Elm Hf Hg. destruct (Req_dec x b) as [->|Hne].
  - assert (Hb : before incr b b = true) by (apply before_true; destruct incr; lra). rewrite Hb.
    specialize (Efg eq_refl). specialize (Elm eq_refl). subst m. specialize (Hf Hb). specialize (Hg (or_intror eq_refl)).
    intros eps Heps. destruct (Hf eps Heps) as [d1 H1]. destruct (Hg eps Heps) as [d2 H2].
    assert (Hm : 0 < Rmin d1 d2) by (apply Rmin_pos; apply cond_pos).
    exists (mkposreal _ Hm). intros h Hh Hlt. cbn in Hlt. rewrite Hb.
    destruct (before incr (b + h) b).
    + apply H1; [exact Hh|]. apply Rlt_le_trans with (1 := Hlt). apply Rmin_l.
    + rewrite Efg. apply H2; [exact Hh|]. apply Rlt_le_trans with (1 := Hlt). apply Rmin_r.
  - assert (Hd : 0 < Rabs (x - b)) by (apply Rabs_pos_lt; lra).
    destruct (before incr x b) eqn:Ex.
    + apply dl_ext_loc with (f := f) (d := Rabs (x - b)); [exact Hd| |apply Hf; reflexivity].
      intros y Hy. assert (before incr y b = true) as ->; [|reflexivity]. apply before_true in Ex. apply before_true.
      unfold Rabs in *. destruct (Rcase_abs _), (Rcase_abs _), incr; lra.
    + apply dl_ext_loc with (f := g) (d := Rabs (x - b)); [exact Hd| |apply Hg; left; reflexivity].
      intros y Hy. assert (before incr y b = false) as ->; [|reflexivity]. apply before_false in Ex. apply before_false.
      unfold Rabs in *. destruct (Rcase_abs _), (Rcase_abs _), incr; lra.
Qed.

(** The curve (k = 0) and its derivatives, extended beyond the table by the end cubics. *)
Fixpoint curve (incr : bool) (k : nat) (cells : list (R * R * coeff)) (x : R) : R :=
  match cells with
  | [] => 0
  | (a, b, c) :: rest => match rest with
                         | [] => poly c k (x - a)
                         | _ => if before incr x b then poly c k (x - a) else curve incr k rest x
                         end
  end.

Lemma curve_start incr k a b c rest : dlt incr a b -> curve incr k ((a, b, c) :: rest) a = poly c k 0.
Proof.
  intros H. cbn [curve]. destruct rest as [|q rest]; [f_equal; ring|].
  assert (before incr a b = true) as ->; [apply before_true; destruct incr; cbn in H; lra|]. f_equal. ring.
Qed.

Lemma curve_cell incr k : (k <= 2)%nat -> forall cells i a b c x, chain incr cells -> nth_error cells i = Some (a, b, c) -> btw incr a x b ->
  curve incr k cells x = poly c k (x - a).
Proof.
  intros Hk. induction cells as [|[[a0 b0] c0] rest IH]; intros i a b c x Hch Hn Hx; [destruct i; discriminate|].
  destruct i as [|i].
  - cbn in Hn. injection Hn as -> -> ->. cbn [curve]. destruct rest as [|q rest]; [reflexivity|].
    assert (before incr x b = true) as ->; [apply before_true; destruct incr; cbn in Hx; lra|]. reflexivity.
  - cbn [nth_error] in Hn. cbn [chain] in Hch. destruct Hch as (Hd & Hj & Hch).
    destruct rest as [|[[a1 b1] c1] rest]; [destruct i; discriminate|]. destruct Hj as [-> Hagree].
    change (curve incr k ((a0, b0, c0) :: (b0, b1, c1) :: rest) x) with
      (if before incr x b0 then poly c0 k (x - a0) else curve incr k ((b0, b1, c1) :: rest) x).
    pose proof (IH i a b c x Hch Hn Hx) as IHx.
    destruct (before incr x b0) eqn:Eb; [|exact IHx]. apply before_true in Eb.
    assert (Hge : if incr then b0 <= a else a <= b0).
    { clear - Hch Hn. revert b0 b1 c1 i Hch Hn. induction rest as [|[[a2 b2] c2] rest IHr]; intros b0 b1 c1 i Hch Hn.
      - destruct i as [|i]; [|destruct i; discriminate]. cbn in Hn. injection Hn as -> _ _. destruct incr; lra.
      - destruct i as [|i]; [cbn in Hn; injection Hn as -> _ _; destruct incr; lra|]. cbn [nth_error] in Hn.
        cbn [chain] in Hch. destruct Hch as (Hd & [-> _] & Hch'). specialize (IHr b1 b2 c2 i Hch' Hn).
        destruct incr; cbn in Hd; lra. }
    assert (x = b0) by (destruct incr; cbn in Hx; lra). subst x.
    rewrite <- IHx. rewrite curve_start by (cbn [chain] in Hch; tauto). apply Hagree. exact Hk.
Qed.

Lemma curve_deriv incr k : (k <= 1)%nat -> forall cells x, chain incr cells -> derivable_pt_lim (curve incr k cells) x (curve incr (S k) cells x).
Proof.
  intros Hk. induction cells as [|[[a b] c] rest IH]; intros x Hch; [exact (dconst 0 x)|].
  cbn [chain] in Hch. destruct Hch as (Hd & Hj & Hch). specialize (IH x Hch).
  destruct rest as [|[[a1 b1] c1] rest]; [cbn [curve]; apply poly_deriv|]. destruct Hj as [-> Hagree].
  change (curve incr k ((a, b, c) :: (b, b1, c1) :: rest)) with (fun y => if before incr y b then poly c k (y - a) else curve incr k ((b, b1, c1) :: rest) y).
  change (curve incr (S k) ((a, b, c) :: (b, b1, c1) :: rest) x) with (if before incr x b then poly c (S k) (x - a) else curve incr (S k) ((b, b1, c1) :: rest) x).
  assert (Hd1 : dlt incr b b1) by (cbn [chain] in Hch; tauto).
  apply (glue_deriv incr b (fun y => poly c k (y - a)) (curve incr k ((b, b1, c1) :: rest))).
  - intros _. rewrite curve_start by exact Hd1. apply Hagree. lia.
  - intros ->. rewrite curve_start by exact Hd1. apply Hagree. lia.
  - intros _. apply poly_deriv.
  - intros _. exact IH.
Qed.

Lemma continuity_eps f x : (forall eps, 0 < eps -> exists d, 0 < d /\ forall y, Rabs (y - x) < d -> Rabs (f y - f x) < eps) -> continuity_pt f x.
Proof.
  intros H. unfold continuity_pt, continue_in, limit1_in, limit_in. intros eps He. destruct (H eps He) as (d & Hd & Hy).
  exists d. split; [exact Hd|]. intros y [_ Hyx]. apply Hy. exact Hyx.
Qed.
Lemma continuity_eps_inv f x : continuity_pt f x -> forall eps, 0 < eps -> exists d, 0 < d /\ forall y, Rabs (y - x) < d -> Rabs (f y - f x) < eps.
Proof.
  intros H eps He. unfold continuity_pt, continue_in, limit1_in, limit_in in H. destruct (H eps He) as (d & Hd & Hy).
  exists d. split; [exact Hd|]. intros y Hyx. destruct (Req_dec x y) as [->|Hn].
  - rewrite Rminus_diag_eq, Rabs_R0 by reflexivity. exact He.
  - apply Hy. split; [split; [exact I|exact Hn]|exact Hyx].
Qed.

Lemma glue_cont incr b f g x : (x = b -> f b = g b) -> continuity_pt f x -> continuity_pt g x ->
  continuity_pt (fun y => if before incr y b then f y else g y) x.
Proof.
  intros Efg Hf Hg. apply continuity_eps. intros eps He.
  destruct (continuity_eps_inv _ _ Hf eps He) as (d1 & P1 & H1). destruct (continuity_eps_inv _ _ Hg eps He) as (d2 & P2 & H2).
  destruct (Req_dec x b) as [->|Hne].
  - exists (Rmin d1 d2). split; [apply Rmin_pos; assumption|]. intros y Hy.
    assert (Hb : before incr b b = true) by (apply before_true; destruct incr; lra). rewrite Hb.
    pose proof (Rmin_l d1 d2). pose proof (Rmin_r d1 d2).
    destruct (before incr y b); [apply H1; lra|]. rewrite (Efg eq_refl). apply H2. lra.
  - assert (Hd : 0 < Rabs (x - b)) by (apply Rabs_pos_lt; lra).
    exists (Rmin (Rabs (x - b)) (Rmin d1 d2)). split; [repeat apply Rmin_pos; assumption|]. intros y Hy.
    pose proof (Rmin_l (Rabs (x - b)) (Rmin d1 d2)). pose proof (Rmin_r (Rabs (x - b)) (Rmin d1 d2)). pose proof (Rmin_l d1 d2). pose proof (Rmin_r d1 d2).
    assert (before incr y b = before incr x b) as ->.
    { destruct (before incr x b) eqn:Ex; [apply before_true in Ex; apply before_true|apply before_false in Ex; apply before_false];
      assert (Hy' : Rabs (y - x) < Rabs (x - b)) by lra; clear - Ex Hy' Hne; unfold Rabs in *; destruct (Rcase_abs _), (Rcase_abs _), incr; lra. }
    destruct (before incr x b); [apply H1; lra|apply H2; lra].
Qed.

Lemma poly_cont c k a x : continuity_pt (fun y => poly c k (y - a)) x.
Proof. apply derivable_continuous_pt. eexists. apply poly_deriv. Qed.

Lemma curve_cont incr : forall cells x, chain incr cells -> continuity_pt (curve incr 2 cells) x.
Proof.
  induction cells as [|[[a b] c] rest IH]; intros x Hch.
  - apply derivable_continuous_pt. exists 0. exact (dconst 0 x).
  - cbn [chain] in Hch. destruct Hch as (Hd & Hj & Hch). specialize (IH x Hch).
    destruct rest as [|[[a1 b1] c1] rest]; [apply (poly_cont c 2 a)|]. destruct Hj as [-> Hagree].
    change (curve incr 2 ((a, b, c) :: (b, b1, c1) :: rest)) with (fun y => if before incr y b then poly c 2 (y - a) else curve incr 2 ((b, b1, c1) :: rest) y).
    apply (glue_cont incr b (fun y => poly c 2 (y - a))); [|apply poly_cont|exact IH].
    intros _. rewrite curve_start by (cbn [chain] in Hch; tauto). apply Hagree. lia.
Qed.

(** ** Eval and Deriv compute this curve *)
Section Spl.
Variables (incr : bool) (xs ys : list R) (s : Spline) (M : list R).
Hypothesis OK : splineOK incr xs ys s M.
Let cells := mkCells xs (sp_coeffs s).
Let C (k : nat) := curve incr k cells.

Lemma ends_ok : exists a b, nth_error xs 0 = Some a /\ nth_error xs (List.length xs - 1) = Some b /\ dlt incr a b.
Proof.
  pose proof (so_len _ _ _ _ _ OK). destruct (ends xs ltac:(lia)) as (a & b & Ha & Hb). exists a, b. split; [exact Ha|]. split; [exact Hb|].
  apply (mono_lt incr xs 0 (List.length xs - 1)); auto; [apply (so_mono _ _ _ _ _ OK)|lia].
Qed.

Lemma cs_len : List.length (sp_coeffs s) = (List.length xs - 1)%nat.
Proof. rewrite (so_cs _ _ _ _ _ OK). apply calcCoeffs_length; [apply (so_ylen _ _ _ _ _ OK)|apply (so_mlen _ _ _ _ _ OK)]. Qed.

Lemma bsearch_ok x a b : nth_error xs 0 = Some a -> nth_error xs (List.length xs - 1) = Some b -> btw incr a x b ->
  exists i xi xj c, bsearch s x = Some (Z.of_nat i) /\ nth_error xs i = Some xi /\ nth_error xs (S i) = Some xj /\ nth_error (sp_coeffs s) i = Some c /\
    btw incr xi x xj.
Proof.
  intros Ha Hb Hx. pose proof (so_len _ _ _ _ _ OK) as Hn. pose proof cs_len as Hc.
  assert (Ha' : at_ xs 0 = Some a) by exact Ha.
  assert (Hb' : at_ xs (Z.of_nat (List.length xs) - 1) = Some b) by (rewrite at_toNat by lia; rewrite <- Hb; f_equal; lia).
  unfold bsearch. rewrite (so_xs _ _ _ _ _ OK), Ha'. cbn [bindo].
  destruct (bsearchGuess_spec (Rtrunc ((x - a) / sp_dx s)) s x a b) as (i & p & q & E & Hr & Hp & Hq & Hbt);
    rewrite ?(so_xs _ _ _ _ _ OK), ?(so_incr _ _ _ _ _ OK) in *; try assumption; try lia.
  destruct (nth_ex (sp_coeffs s) (Z.to_nat i)) as [c Ec]; [lia|].
  exists (Z.to_nat i), p, q, c. rewrite Z2Nat.id by lia. split; [exact E|].
  rewrite at_toNat in Hp, Hq by lia. replace (Z.to_nat (i + 1)) with (S (Z.to_nat i)) in Hq by lia. auto.
Qed.

Lemma curve_at k i xi xj c x : (k <= 2)%nat -> nth_error xs i = Some xi -> nth_error xs (S i) = Some xj -> nth_error (sp_coeffs s) i = Some c ->
  btw incr xi x xj -> C k x = poly c k (x - xi).
Proof.
  intros Hk H1 H2 H3 Hx. unfold C. apply (curve_cell incr k Hk cells i xi xj c x); [|apply mkCells_nth; assumption|exact Hx].
  apply (splineOK_chain _ _ _ _ _ OK).
Qed.

Lemma coeff_at i xi xj : nth_error xs i = Some xi -> nth_error xs (S i) = Some xj ->
  exists y0 y1 m0 m1, nth_error ys i = Some y0 /\ nth_error ys (S i) = Some y1 /\ nth_error M i = Some m0 /\ nth_error M (S i) = Some m1 /\
   nth_error (sp_coeffs s) i = Some {| ca := (- m0 / 6 + m1 / 6) / (xj - xi); cb := m0 / 2; cc := (y1 - y0) / (xj - xi) + (xj - xi) * (- m0 / 3 - m1 / 6); cd := y0 |} /\ xj - xi <> 0.
Proof.
  intros Hi Hj. assert (Hl : (S i < List.length xs)%nat) by (apply nth_error_Some; congruence).
  pose proof (so_ylen _ _ _ _ _ OK). pose proof (so_mlen _ _ _ _ _ OK).
  destruct (getx ys i) as [y0 F0]; [lia|]. destruct (getx ys (S i)) as [y1 F1]; [lia|].
  destruct (getx M i) as [m0 G0]; [lia|]. destruct (getx M (S i)) as [m1 G1]; [lia|].
  exists y0, y1, m0, m1. repeat (split; [assumption|]). split.
  - rewrite (so_cs _ _ _ _ _ OK). apply calcCoeffs_nth; assumption.
  - apply (dlt_ne incr). apply (mono_lt incr xs i (S i)); auto. apply (so_mono _ _ _ _ _ OK).
Qed.

Lemma curve_node k a v : nth_error xs k = Some a -> nth_error ys k = Some v -> C 0 a = v.
Proof.
  intros Ha Hv. pose proof (so_len _ _ _ _ _ OK) as Hn. assert (Hl : (k < List.length xs)%nat) by (apply nth_error_Some; congruence).
  destruct (Nat.eq_dec k (List.length xs - 1)) as [E|E].
  - destruct (getx xs (k - 1)) as [p Hp]; [lia|]. assert (Ha' : nth_error xs (S (k - 1)) = Some a) by (replace (S (k - 1)) with k by lia; exact Ha).
    destruct (coeff_at (k - 1) p a Hp Ha') as (y0 & y1 & m0 & m1 & F0 & F1 & G0 & G1 & Hc & Hne).
    rewrite (curve_at 0 (k - 1) p a _ a ltac:(lia) Hp Ha' Hc).
    + replace (S (k - 1)) with k in F1 by lia. replace v with y1 by congruence. cbn [poly ca cb cc cd]. field. exact Hne.
    + pose proof (mono_lt incr xs (k - 1) k p a (so_mono _ _ _ _ _ OK) ltac:(lia) Hp Ha) as D. unfold btw. destruct incr; cbn in D; lra.
  - destruct (getx xs (S k)) as [q Hq]; [lia|]. destruct (coeff_at k a q Ha Hq) as (y0 & y1 & m0 & m1 & F0 & F1 & G0 & G1 & Hc & Hne).
    rewrite (curve_at 0 k a q _ a ltac:(lia) Ha Hq Hc).
    + replace v with y0 by congruence. cbn [poly ca cb cc cd]. ring.
    + pose proof (mono_lt incr xs k (S k) a q (so_mono _ _ _ _ _ OK) ltac:(lia) Ha Hq) as D. unfold btw. destruct incr; cbn in D; lra.
Qed.

Lemma curve_natural : natural_spline xs ys (C 0) (C 1) (C 2).
Proof.
  pose proof (so_len _ _ _ _ _ OK) as Hn. pose proof (splineOK_chain _ _ _ _ _ OK) as Hch. split.
  - intros k a v. apply curve_node.
  - intros i a b Ha Hb. destruct (coeff_at i a b Ha Hb) as (y0 & y1 & m0 & m1 & F0 & F1 & G0 & G1 & Hc & Hne).
    pose proof (mono_lt incr xs i (S i) a b (so_mono _ _ _ _ _ OK) ltac:(lia) Ha Hb) as D.
    set (c := {| ca := _; cb := _; cc := _; cd := _ |}) in *. clearbody c.
    exists (ca c), (cb c - 3 * ca c * a), (cc c - 2 * cb c * a + 3 * ca c * a * a), (cd c - cc c * a + cb c * a * a - ca c * a * a * a).
    intros x Hx. rewrite (curve_at 0 i a b c x ltac:(lia) Ha Hb Hc) by (unfold btw; destruct incr; cbn in D; lra).
    cbn [poly]. ring.
  - intros x. apply curve_deriv; [lia|exact Hch].
  - intros x. apply curve_deriv; [lia|exact Hch].
  - intros x. apply curve_cont. exact Hch.
  - intros a Ha. destruct (getx xs 1) as [b Hb]; [lia|].
    destruct (coeff_at 0 a b Ha Hb) as (y0 & y1 & m0 & m1 & F0 & F1 & G0 & G1 & Hc & Hne).
    pose proof (mono_lt incr xs 0 1 a b (so_mono _ _ _ _ _ OK) ltac:(lia) Ha Hb) as D.
    rewrite (curve_at 2 0 a b _ a ltac:(lia) Ha Hb Hc) by (unfold btw; destruct incr; cbn in D; lra).
    rewrite (so_m0 _ _ _ _ _ OK) in G0. injection G0 as <-. cbn [poly ca cb]. field. exact Hne.
  - intros b Hb. destruct (getx xs (List.length xs - 2)) as [a Ha]; [lia|].
    assert (Hb' : nth_error xs (S (List.length xs - 2)) = Some b) by (rewrite <- Hb; f_equal; lia).
    destruct (coeff_at _ a b Ha Hb') as (y0 & y1 & m0 & m1 & F0 & F1 & G0 & G1 & Hc & Hne).
    pose proof (mono_lt incr xs _ _ a b (so_mono _ _ _ _ _ OK) (Nat.lt_succ_diag_r _) Ha Hb') as D.
    rewrite (curve_at 2 _ a b _ b ltac:(lia) Ha Hb' Hc) by (unfold btw; destruct incr; cbn in D; lra).
    replace (S (List.length xs - 2)) with (List.length xs - 1)%nat in G1 by lia. rewrite (so_mn _ _ _ _ _ OK) in G1. injection G1 as <-.
    cbn [poly ca cb]. field. exact Hne.
Qed.

Lemma last_ys : forall a b, nth_error xs 0 = Some a -> nth_error xs (List.length xs - 1) = Some b ->
  exists v w, at_ (sp_ys s) 0 = Some v /\ C 0 a = v /\ at_ (sp_ys s) (Z.of_nat (List.length (sp_ys s)) - 1) = Some w /\ C 0 b = w.
Proof.
  intros a b Ha Hb. rewrite (so_ys _ _ _ _ _ OK). pose proof (so_ylen _ _ _ _ _ OK) as Hl. pose proof (so_len _ _ _ _ _ OK).
  destruct (getx ys 0) as [v Hv]; [lia|]. destruct (getx ys (List.length ys - 1)) as [w Hw]; [lia|].
  exists v, w. split; [exact Hv|]. split; [apply (curve_node 0 a v Ha Hv)|]. split.
  - rewrite at_toNat by lia. rewrite <- Hw. f_equal. lia.
  - rewrite Hl in Hw. apply (curve_node _ b w Hb Hw).
Qed.

Lemma eval_curve x a b : nth_error xs 0 = Some a -> nth_error xs (List.length xs - 1) = Some b -> btw incr a x b -> SplineEval s x = Some (C 0 x).
Proof.
  intros Ha Hb Hx. pose proof (so_len _ _ _ _ _ OK) as Hn.
  assert (Ha' : at_ xs 0 = Some a) by exact Ha.
  assert (Hb' : at_ xs (Z.of_nat (List.length xs) - 1) = Some b) by (rewrite at_toNat by lia; rewrite <- Hb; f_equal; lia).
  unfold SplineEval. cbv zeta. rewrite (so_xs _ _ _ _ _ OK), (so_incr _ _ _ _ _ OK), Ha', Hb'. cbn [bindo].
  destruct (last_ys a b Ha Hb) as (v & w & E1 & E2 & E3 & E4).
  destruct (Bool.eqb (Rleb x a) incr || Bool.eqb (Rleb b x) incr) eqn:Ed.
  - destruct (Reqb x a) eqn:Exa; [apply Reqb_true in Exa; subst x; rewrite E1, E2; reflexivity|].
    destruct (Reqb x b) eqn:Exb; [apply Reqb_true in Exb; subst x; rewrite E3, E4; reflexivity|].
    apply Reqb_false in Exa, Exb. exfalso. apply orb_true_iff in Ed.
    destruct Ed as [Ed|Ed]; apply Bool.eqb_prop in Ed; unfold btw in Hx; destruct incr; rewrite ?Rleb_true, ?Rleb_false in Ed; lra.
  - destruct (bsearch_ok x a b Ha Hb Hx) as (i & xi & xj & c & E & Hi & Hj & Hc & Hbt).
    rewrite E. cbn [bindo]. rewrite !at_nat, Hi, Hc. cbn [bindo]. f_equal. symmetry. apply (curve_at 0 i xi xj c x); auto; lia.
Qed.

Lemma deriv_curve x a b k : (k <= 2)%nat -> nth_error xs 0 = Some a -> nth_error xs (List.length xs - 1) = Some b -> btw incr a x b ->
  incr = true \/ (x <> a /\ x <> b) -> SplineDeriv s x k = Some (C k x).
Proof.
  intros Hk Ha Hb Hx Hin. pose proof (so_len _ _ _ _ _ OK) as Hn.
  assert (Ha' : at_ xs 0 = Some a) by exact Ha.
  assert (Hb' : at_ xs (Z.of_nat (List.length xs) - 1) = Some b) by (rewrite at_toNat by lia; rewrite <- Hb; f_equal; lia).
  unfold SplineDeriv. cbv zeta. rewrite (so_xs _ _ _ _ _ OK), (so_incr _ _ _ _ _ OK), Ha', Hb'. cbn [bindo].
  destruct (bsearch_ok x a b Ha Hb Hx) as (i & xi & xj & c & E & Hi & Hj & Hc & Hbt).
  assert (Bool.eqb (Rltb x a) incr || Bool.eqb (Rltb b x) incr = false) as ->.
  { apply orb_false_iff. unfold btw in Hx. destruct incr.
    - rewrite (proj2 (Rltb_false x a)), (proj2 (Rltb_false b x)) by lra. split; reflexivity.
    - destruct Hin as [Hin|Hin]; [discriminate|]. rewrite (proj2 (Rltb_true x a)), (proj2 (Rltb_true b x)) by lra. split; reflexivity. }
  rewrite E. cbn [bindo]. rewrite !at_nat, Hi, Hc. cbn [bindo]. f_equal. symmetry. apply (curve_at k i xi xj c x); auto.
Qed.

Lemma eval_outside x a b : nth_error xs 0 = Some a -> nth_error xs (List.length xs - 1) = Some b -> ~ btw incr a x b -> SplineEval s x = None.
Proof.
  intros Ha Hb Hx. pose proof (so_len _ _ _ _ _ OK) as Hn.
  assert (Ha' : at_ xs 0 = Some a) by exact Ha.
  assert (Hb' : at_ xs (Z.of_nat (List.length xs) - 1) = Some b) by (rewrite at_toNat by lia; rewrite <- Hb; f_equal; lia).
  unfold SplineEval. cbv zeta. rewrite (so_xs _ _ _ _ _ OK), (so_incr _ _ _ _ _ OK), Ha', Hb'. cbn [bindo].
  destruct ends_ok as (a' & b' & Ha2 & Hb2 & Hd). replace a' with a in * by congruence. replace b' with b in * by congruence.
  assert (Bool.eqb (Rleb x a) incr || Bool.eqb (Rleb b x) incr = true) as ->.
  { apply orb_true_iff. unfold btw in Hx. destruct incr; cbn in Hd.
    - destruct (Rle_dec x a); [left; rewrite (proj2 (Rleb_true x a)) by lra; reflexivity|]. right. rewrite (proj2 (Rleb_true b x)) by lra. reflexivity.
    - destruct (Rlt_dec a x); [left; rewrite (proj2 (Rleb_false x a)) by lra; reflexivity|]. right. rewrite (proj2 (Rleb_false b x)) by lra. reflexivity. }
  rewrite (proj2 (Reqb_false x a)), (proj2 (Reqb_false x b)); [reflexivity| |]; intros ->; apply Hx; unfold btw; destruct incr; cbn in Hd; lra.
Qed.

Lemma deriv_end_panics x k : incr = false -> (nth_error xs 0 = Some x \/ nth_error xs (List.length xs - 1) = Some x) -> SplineDeriv s x k = None.
Proof.
  intros Hinc Hx. pose proof (so_len _ _ _ _ _ OK) as Hn. destruct ends_ok as (a & b & Ha & Hb & Hd).
  assert (Ha' : at_ xs 0 = Some a) by exact Ha.
  assert (Hb' : at_ xs (Z.of_nat (List.length xs) - 1) = Some b) by (rewrite at_toNat by lia; rewrite <- Hb; f_equal; lia).
  unfold SplineDeriv. cbv zeta. rewrite (so_xs _ _ _ _ _ OK), (so_incr _ _ _ _ _ OK), Ha', Hb', Hinc. cbn [bindo].
  destruct Hx as [Hx|Hx].
  - replace x with a by congruence. rewrite (proj2 (Rltb_false a a)) by lra. reflexivity.
  - replace x with b by congruence. rewrite (proj2 (Rltb_false b b)) by lra. rewrite orb_true_r. reflexivity.
Qed.
End Spl.
