(** * Integrate, for lower bounds that are knots of an increasing table. *)
From Coq Require Import Lra Psatz.
From Verif Require Import GoBase RealBase InterpModel InterpSpec InterpProofs InterpProofs2 InterpProofs3 InterpProofs4 InterpProofs5 InterpProofs6.
Local Open Scope R_scope.
Local Open Scope list_scope.

Section Int.
Variables (xs ys : list R) (s : Spline) (M : list R).
Hypothesis OK : splineOK true xs ys s M.
Let C := curve true 0 (mkCells xs (sp_coeffs s)).
Variables (G : R -> R) (lo hi : R).
Hypothesis HG : forall x, lo <= x <= hi -> derivable_pt_lim G x (C x).

Lemma cell_int i xi xj c v : nth_error xs i = Some xi -> nth_error xs (S i) = Some xj -> nth_error (sp_coeffs s) i = Some c ->
  lo <= xi -> xi <= v <= xj -> v <= hi -> G v - G xi = integTerm c xi v.
Proof.
  intros Hi Hj Hc Hlo Hv Hhi.
  assert (E0 : integTerm c xi xi = 0) by (unfold integTerm; replace (xi - xi) with 0 by ring; lra).
  destruct (Req_dec xi v) as [<-|Hne]; [rewrite E0; ring|].
  destruct (MVT_cor2 (fun x => G x - integTerm c xi x) (fun x => C x - poly c 0 (x - xi)) xi v ltac:(lra)) as (p & Hp & Hpr).
  { intros x Hx. apply (dminus G (integTerm c xi)); [apply HG; lra|]. unfold integTerm, Rdiv. cbv zeta. derive. cbv beta. cbn [poly]. field. }
  rewrite E0 in Hp. assert (C p = poly c 0 (p - xi)) as EC.
  { unfold C. apply (curve_at true xs ys s M OK 0 i xi xj c p); [lia|exact Hi|exact Hj|exact Hc|unfold btw; lra]. }
  rewrite EC in Hp. lra.
Qed.

Lemma mid_int : forall k i xi xk, nth_error xs i = Some xi -> nth_error xs (i + k) = Some xk -> lo <= xi -> xk <= hi ->
  integMid s k (Z.of_nat i) = Some (G xk - G xi).
Proof.
  induction k as [|k IH]; intros i xi xk Hi Hk Hlo Hhi.
  - rewrite Nat.add_0_r in Hk. replace xk with xi by congruence. cbn. f_equal. ring.
  - assert (Hl : (i + S k < List.length xs)%nat) by (apply nth_error_Some; congruence).
    destruct (getx xs (S i)) as [xj Hj]; [lia|].
    pose proof (mono_lt true xs i (S i) xi xj (so_mono _ _ _ _ _ OK) ltac:(lia) Hi Hj) as D1. cbn in D1.
    assert (D2 : xj <= xk).
    { destruct (Nat.eq_dec k 0) as [->|]; [replace (i + 1)%nat with (S i) in Hk by lia; replace xk with xj by congruence; lra|].
      apply Rlt_le. apply (mono_lt true xs (S i) (i + S k) xj xk (so_mono _ _ _ _ _ OK)); auto; lia. }
    pose proof (cs_len true xs ys s M OK) as Hcl. destruct (nth_ex (sp_coeffs s) i) as [c Hc]; [lia|].
    cbn [integMid]. rewrite at_nat, Hc, (so_xs _ _ _ _ _ OK), at_nat, Hi. cbn [bindo].
    replace (Z.of_nat i + 1)%Z with (Z.of_nat (S i)) by lia. rewrite at_nat, Hj. cbn [bindo].
    replace (i + S k)%nat with (S i + k)%nat in Hk by lia.
    rewrite (IH (S i) xj xk Hj Hk ltac:(lra) Hhi). cbn [bindo].
    rewrite <- (cell_int i xi xj c xj Hi Hj Hc Hlo ltac:(lra) ltac:(lra)). f_equal. ring.
Qed.

Lemma integrateUp_ok a b : nth_error xs 0 = Some a -> nth_error xs (List.length xs - 1) = Some b -> (exists k, nth_error xs k = Some lo) ->
  lo <= hi -> hi <= b -> integrateUp s lo hi = Some (G hi - G lo).
Proof.
  intros Ha Hb [k Hk] Hle Hhb. pose proof (so_len _ _ _ _ _ OK) as Hn. pose proof (so_mono _ _ _ _ _ OK) as Hm.
  assert (Hal : a <= lo).
  { destruct k; [replace a with lo by congruence; lra|]. apply Rlt_le, (mono_lt true xs 0 (S k) a lo Hm); auto; lia. }
  assert (Ha' : at_ xs 0 = Some a) by exact Ha.
  assert (Hb' : at_ xs (Z.of_nat (List.length xs) - 1) = Some b) by (rewrite at_toNat by lia; rewrite <- Hb; f_equal; lia).
  unfold integrateUp. cbv zeta. rewrite (so_xs _ _ _ _ _ OK), (so_incr _ _ _ _ _ OK), Ha', Hb'. cbn [bindo].
  rewrite (proj2 (Rltb_false lo a)), (proj2 (Rltb_false b lo)), (proj2 (Rltb_false hi a)), (proj2 (Rltb_false b hi)) by lra. cbn [Bool.eqb orb].
  destruct (bsearch_ok true xs ys s M OK lo a b Ha Hb) as (i & xi & xj & c & E & Hi & Hj & Hc & Hbt); [unfold btw; lra|].
  destruct (bsearch_ok true xs ys s M OK hi a b Ha Hb) as (i' & xi' & xj' & c' & E' & Hi' & Hj' & Hc' & Hbt'); [unfold btw; lra|].
  rewrite E, E'. cbn [bindo]. rewrite (at_nat (sp_coeffs s) i), Hc. cbn [bindo]. unfold btw in Hbt, Hbt'.
  pose proof (bracket_node xs k i xi xj lo Hm Hk Hi Hj Hbt) as Hnode.
  assert (Hself : forall cf, integTerm cf lo lo = 0) by (intros cf; unfold integTerm; replace (lo - lo) with 0 by ring; lra).
  destruct (Z.eqb_spec (Z.of_nat i) (Z.of_nat i')) as [Eq|Ne].
  - assert (i' = i) by lia. subst i'. assert (xi' = xi) by congruence. assert (xj' = xj) by congruence. subst xi' xj'.
    f_equal. destruct Hnode as [[_ El]|[_ El]].
    + rewrite El; symmetry. apply (cell_int i xi xj c hi Hi Hj Hc); lra.
    + assert (hi = lo) by lra. rewrite H, Hself. ring.
  - assert (Hlt : (i < i')%nat).
    { destruct (Nat.lt_trichotomy i i') as [H|[H|H]]; [exact H|lia|]. exfalso.
      assert (xj' <= xi).
      { destruct (Nat.eq_dec (S i') i) as [<-|]; [replace xj' with xi by congruence; lra|].
        apply Rlt_le, (mono_lt true xs (S i') i xj' xi Hm); auto; lia. }
      assert (lo = hi) by lra. assert (bsearch s lo = bsearch s hi) by congruence. rewrite E, E' in H2. injection H2 as H2. lia. }
    rewrite (at_nat (sp_coeffs s) i'), Hc'. cbn [bindo]. replace (Z.of_nat i + 1)%Z with (Z.of_nat (S i)) by lia. rewrite !at_nat, Hj, Hi'. cbn [bindo].
    replace (Z.to_nat (Z.of_nat i' - Z.of_nat (S i))) with (i' - S i)%nat by lia.
    assert (Hj2 : xj <= xi').
    { destruct (Nat.eq_dec (S i) i') as [<-|]; [replace xi' with xj by congruence; lra|].
      apply Rlt_le, (mono_lt true xs (S i) i' xj xi' Hm); auto; lia. }
    rewrite (mid_int (i' - S i) (S i) xj xi' Hj); [|rewrite <- Hi'; f_equal; lia|lra|lra]. cbn [bindo].
    rewrite <- (cell_int i' xi' xj' c' hi Hi' Hj' Hc' ltac:(lra) ltac:(lra) ltac:(lra)).
    assert (E1 : integTerm c lo xj = G xj - G lo).
    { destruct Hnode as [[_ El]|[_ El]].
      - rewrite El; symmetry. apply (cell_int i xi xj c xj Hi Hj Hc); lra.
      - rewrite <- El, Hself. ring. }
    rewrite E1. f_equal. ring.
Qed.
End Int.

Theorem Integrate_ok xs ys s M G lo hi a b : splineOK true xs ys s M ->
  nth_error xs 0 = Some a -> nth_error xs (List.length xs - 1) = Some b -> a <= lo <= b -> a <= hi <= b ->
  (exists k, nth_error xs k = Some (Rmin lo hi)) ->
  (forall x, Rmin lo hi <= x <= Rmax lo hi -> derivable_pt_lim G x (curve true 0 (mkCells xs (sp_coeffs s)) x)) ->
  SplineIntegrate s lo hi = Some (G hi - G lo).
Proof.
  intros OK Ha Hb Hlo Hhi Hk HG. unfold SplineIntegrate. destruct (Rltb hi lo) eqn:E.
  - apply Rltb_true in E. rewrite Rmin_right in Hk, HG by lra. rewrite Rmax_left in HG by lra.
    rewrite (integrateUp_ok xs ys s M OK G hi lo HG a b Ha Hb Hk) by lra. cbn. f_equal. ring.
  - apply Rltb_false in E. rewrite Rmin_left in Hk, HG by lra. rewrite Rmax_right in HG by lra.
    apply (integrateUp_ok xs ys s M OK G lo hi HG a b Ha Hb Hk); lra.
Qed.
