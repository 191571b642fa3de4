(** * A concrete density with a peak. *)
From Coq Require Import Lra Lia.
From Verif Require Import GoBase GoBaseFacts RealBase LoopBase LoopFacts InterpModel InterpSpec InterpProofs InterpProofs5 InterpProofs6 KdeModel KdeSpec KdeSpec2 MatSpec MatProofs RockstarProofs
  KdeProofs KdeProofs2 KdeProofs3 KdeProofs4 KdeProofs5.
Import List ListNotations.
Local Open Scope R_scope.

(** The largest of n values. *)
Lemma argmax (g : nat -> R) n : (1 <= n)%nat -> exists i, (i < n)%nat /\ forall j, (j < n)%nat -> g j <= g i.
Proof.
  induction n as [|n IH]; intros Hn; [lia|]. destruct n as [|n].
  - exists O. split; [lia|]. intros j Hj. assert (j = O) by lia. subst. lra.
  - destruct (IH ltac:(lia)) as (i & Hi & H). destruct (Rle_dec (g (S n)) (g i)) as [Hc|Hc].
    + exists i. split; [lia|]. intros j Hj. destruct (Nat.eq_dec j (S n)) as [->|]; [exact Hc|]. apply H. lia.
    + exists (S n). split; [lia|]. intros j Hj. destruct (Nat.eq_dec j (S n)) as [->|]; [lra|]. specialize (H j ltac:(lia)). lra.
Qed.

(** With unit spacing the second derivatives of a natural spline are at most twelve times the values. *)
Lemma second_bound xs ys s M B : splineOK true xs ys s M -> (forall i a b, nth_error xs i = Some a -> nth_error xs (S i) = Some b -> b - a = 1) ->
  (forall i y, nth_error ys i = Some y -> Rabs y <= B) -> forall i m, nth_error M i = Some m -> Rabs m <= 12 * B.
Proof.
  intros OK Hd HB. pose proof (so_len _ _ _ _ _ OK) as Ln. pose proof (so_ylen _ _ _ _ _ OK) as Ly. pose proof (so_mlen _ _ _ _ _ OK) as Lm.
  set (n := length xs) in *. destruct (argmax (fun i => Rabs (nth i M 0)) n ltac:(lia)) as (k & Hk & Hmax).
  assert (HB0 : 0 <= B). { destruct (nth_error ys 0) as [y|] eqn:E; [|apply nth_error_None in E; lia]. specialize (HB _ _ E). pose proof (Rabs_pos y). lra. }
  assert (G : Rabs (nth k M 0) <= 12 * B).
  { destruct (Nat.eq_dec k 0) as [->|H0].
    - rewrite (nth_error_nth _ _ 0 (so_m0 _ _ _ _ _ OK)), Rabs_R0. lra.
    - destruct (Nat.eq_dec k (n - 1)) as [->|H1].
      + assert (E1 : nth (n - 1) M 0 = 0) by (apply nth_error_nth; apply (so_mn _ _ _ _ _ OK)). rewrite E1, Rabs_R0. lra.
      + destruct k as [|k]; [lia|].
        assert (Hx : forall j, (j < n)%nat -> nth_error xs j = Some (nth j xs 0)) by (intros; now apply nth_error_nth').
        assert (Hy : forall j, (j < n)%nat -> nth_error ys j = Some (nth j ys 0)) by (intros; apply nth_error_nth'; lia).
        assert (Hm : forall j, (j < n)%nat -> nth_error M j = Some (nth j M 0)) by (intros; apply nth_error_nth'; lia).
        pose proof (so_eq _ _ _ _ _ OK k _ _ _ _ _ _ _ _ _ (Hx k ltac:(lia)) (Hx (S k) ltac:(lia)) (Hx (S (S k)) ltac:(lia)) (Hy k ltac:(lia)) (Hy (S k) ltac:(lia)) (Hy (S (S k)) ltac:(lia))
          (Hm k ltac:(lia)) (Hm (S k) ltac:(lia)) (Hm (S (S k)) ltac:(lia))) as E.
        pose proof (Hd k _ _ (Hx k ltac:(lia)) (Hx (S k) ltac:(lia))) as D1. pose proof (Hd (S k) _ _ (Hx (S k) ltac:(lia)) (Hx (S (S k)) ltac:(lia))) as D2.
        replace (nth (S (S k)) xs 0 - nth k xs 0) with 2 in E by lra. rewrite D1, D2 in E.
        pose proof (HB _ _ (Hy k ltac:(lia))) as B0. pose proof (HB _ _ (Hy (S k) ltac:(lia))) as B1. pose proof (HB _ _ (Hy (S (S k)) ltac:(lia))) as B2.
        pose proof (Hmax k ltac:(lia)) as M0. pose proof (Hmax (S (S k)) ltac:(lia)) as M2. cbv beta in M0, M2.
        revert E B0 B1 B2 M0 M2. generalize (nth k M 0) (nth (S k) M 0) (nth (S (S k)) M 0) (nth k ys 0) (nth (S k) ys 0) (nth (S (S k)) ys 0). intros a b c u v w E B0 B1 B2 M0 M2.
        unfold Rabs in *. destruct (Rcase_abs a), (Rcase_abs b), (Rcase_abs c), (Rcase_abs u), (Rcase_abs v), (Rcase_abs w); lra. }
  intros i m Hi. assert (Hin : (i < n)%nat) by (rewrite <- Lm; apply nth_error_Some; congruence). specialize (Hmax i Hin). cbv beta in Hmax.
  rewrite (nth_error_nth _ _ 0 Hi) in Hmax. lra.
Qed.

(** So inside a cell it stays within 6 B t (1 - t) of the chord. *)
Lemma chord_bound xs ys s M B i a b y0 y1 x : splineOK true xs ys s M -> (forall i a b, nth_error xs i = Some a -> nth_error xs (S i) = Some b -> b - a = 1) ->
  (forall i y, nth_error ys i = Some y -> Rabs y <= B) -> nth_error xs i = Some a -> nth_error xs (S i) = Some b -> nth_error ys i = Some y0 -> nth_error ys (S i) = Some y1 ->
  a <= x <= b -> exists v, SplineEval s x = Some v /\ Rabs (v - (y0 + (y1 - y0) * (x - a))) <= 6 * B * ((x - a) * (b - x)).
Proof.
  intros OK Hd HB Ha Hb Hy0 Hy1 Hx. pose proof (Hd _ _ _ Ha Hb) as D.
  destruct (ends_ok true xs ys s M OK) as (a0 & b0 & E0 & E1 & _).
  assert (Hinc : forall p q u v, (p <= q)%nat -> nth_error xs p = Some u -> nth_error xs q = Some v -> u <= v).
  { intros p q u v Hpq Hu Hv. destruct (Nat.eq_dec p q) as [->|]; [assert (u = v) by congruence; lra|].
    pose proof (mono_lt true xs p q u v (so_mono _ _ _ _ _ OK) ltac:(lia) Hu Hv) as Hlt. cbn in Hlt. lra. }
  assert (Hi : (S i < length xs)%nat) by (apply nth_error_Some; congruence).
  pose proof (Hinc 0%nat i _ _ ltac:(lia) E0 Ha) as La. pose proof (Hinc (S i) (length xs - 1)%nat _ _ ltac:(lia) Hb E1) as Lb.
  eexists. split; [apply (eval_curve true xs ys s M OK x a0 b0 E0 E1); cbn; lra|].
  pose proof (so_mlen _ _ _ _ _ OK) as Lm.
  destruct (nth_error M i) as [m0|] eqn:Em0; [|apply nth_error_None in Em0; lia]. destruct (nth_error M (S i)) as [m1|] eqn:Em1; [|apply nth_error_None in Em1; lia].
  pose proof (calcCoeffs_nth i xs ys M _ _ _ _ _ _ Ha Hb Hy0 Hy1 Em0 Em1) as Ec. rewrite <- (so_cs _ _ _ _ _ OK) in Ec.
  rewrite (curve_at true xs ys s M OK 0 i a b _ x ltac:(lia) Ha Hb Ec) by (cbn; lra). unfold InterpModel.poly. cbn [ca cb cc cd]. rewrite D.
  pose proof (second_bound xs ys s M B OK Hd HB _ _ Em0) as B0. pose proof (second_bound xs ys s M B OK Hd HB _ _ Em1) as B1.
  set (t := x - a). assert (Ht : 0 <= t <= 1) by (unfold t; lra). replace (b - x) with (1 - t) by (unfold t; lra).
  match goal with |- Rabs ?e <= _ => replace e with (- (t * (1 - t)) * (m0 * (2 - t) + m1 * (1 + t)) / 6) by field end.
  assert (P : 0 <= t * (1 - t)) by nra.
  assert (Q : Rabs (m0 * (2 - t) + m1 * (1 + t)) <= 36 * B).
  { eapply Rle_trans; [apply Rabs_triang|]. rewrite !Rabs_mult, (Rabs_right (2 - t)), (Rabs_right (1 + t)) by lra. nra. }
  unfold Rdiv. rewrite !Rabs_mult, Rabs_Ropp, (Rabs_right (t * (1 - t))), (Rabs_right (/ 6)) by lra. nra.
Qed.

Lemma exp_small : exp (-9) < 1 / 100.
Proof.
  assert (H : exp (-9) = / exp 9) by (rewrite <- exp_Ropp; f_equal; lra). rewrite H.
  assert (H1 : exp 9 = exp 3 * exp 3 * exp 3) by (rewrite <- !exp_plus; f_equal; lra).
  assert (H2 : 5 <= exp 3). { assert (exp 3 = exp 1 * exp 1 * exp 1) by (rewrite <- !exp_plus; f_equal; lra). pose proof (exp_ineq1 1 ltac:(lra)). rewrite H0. nra. }
  apply (Rmult_lt_reg_l (exp 9)); [apply exp_pos|]. rewrite Rinv_r by (pose proof (exp_pos 9); lra). rewrite H1.
  assert (125 <= exp 3 * exp 3 * exp 3) by nra. lra.
Qed.

Definition ex_rs : list R := [1; 99].
Definition ex_phis : list R := [PI; 1].
Definition ex_h : R := 1 / 10.

Lemma ex_valid : valid_points ex_rs ex_phis.
Proof.
  pose proof PI_RGT_0. pose proof PI2_1. split; [discriminate|]. split; [reflexivity|]. split; intros r [<-|[<-|[]]]; lra.
Qed.

Lemma ex_high : In 99 ex_rs /\ forall r, In r ex_rs -> r <= 99.
Proof. split; [right; now left|]. intros r [<-|[<-|[]]]; lra. Qed.

(** Points at radii 1 and 99 with kernels of width 1/10: the density has a peak at the first sample. *)
Lemma ex_peak f : density_curve ex_rs ex_h 99 f -> peak 99 f 1.
Proof.
  intros (sp & E & Hf). unfold ex_rs, ex_h in *. set (h := 1 / 10) in *.
  destruct (kde_table_ok h 0 99 100 ltac:(lia) ltac:(lra) ltac:(unfold h; lra) [1; 99]) as (ys & Et & Ly & Hy).
  set (xs := kde_grid 0 99 100) in *.
  assert (Lx : length xs = 100%nat) by (apply kde_grid_length; lia).
  assert (Hxn : forall i, (i < 100)%nat -> nth_error xs i = Some (INR i)).
  { intros i Hi. rewrite (nth_error_nth' _ 0) by lia. unfold xs. rewrite kde_grid_nth by lia. unfold even_point.
    replace (INR (100 - 1)) with 99 by (rewrite INR_IZR_INZ; reflexivity). f_equal. field. }
  destruct (NewSpline_ok true xs ys) as (s & M & Es & OK); [apply (kde_grid_increasing 0 99 100); [lia|lra]|lia|lia|].
  assert (Hs : gaussian_kde [1; 99] h 0 99 100 = Some s).
  { unfold gaussian_kde. change (100 =? 0)%nat with false. cbv iota. rewrite Et. exact Es. }
  assert (s = sp) by congruence. subst sp. clear Hs E Es.
  assert (Hd : forall i a b, nth_error xs i = Some a -> nth_error xs (S i) = Some b -> b - a = 1).
  { intros i a b Ha Hb. assert (Hi : (S i < 100)%nat) by (rewrite <- Lx; apply nth_error_Some; congruence). rewrite Hxn in Ha, Hb by lia. pose proof (S_INR i). assert (a = INR i) by congruence. assert (b = INR (S i)) by congruence. lra. }
  assert (He : forall i, (i < 100)%nat -> even_point 0 99 100 i = INR i).
  { intros i Hi. unfold even_point. replace (INR (100 - 1)) with 99 by (rewrite INR_IZR_INZ; reflexivity). field. }
  pose proof exp_small as Hsm. pose proof (exp_pos (-9)) as Hep.
  assert (Hexp : forall z, 100 <= z -> exp (- z) <= exp (-9)). { intros z Hz. destruct (Req_dec z 9); [subst; lra|]. left. apply exp_increasing. lra. }
  assert (Hk : forall i, (i < 100)%nat -> kde [1; 99] h (INR i) - 2 * exp (-9) <= nth i ys 0 <= kde [1; 99] h (INR i)).
  { intros i Hi. destruct (Hy i Hi) as [H _]. rewrite He in H by exact Hi. cbn [length INR] in H. lra. }
  assert (Hkd : forall g, kde [1; 99] h g = exp (- (100 * ((g - 1) * (g - 1)))) + exp (- (100 * ((g - 99) * (g - 99))))).
  { intros g. unfold kde, fold_right, h. rewrite Rplus_0_r. f_equal; f_equal; field. }
  assert (Hnear : forall z, 0 <= z -> exp (- (100 * (z))) <= 1). { intros z Hz. rewrite <- exp_0. destruct (Req_dec z 0) as [->|]; [right; f_equal; lra|]. left. apply exp_increasing. lra. }
  assert (HB : forall i y, nth_error ys i = Some y -> Rabs y <= 2).
  { intros i y Hi. assert (Hin : (i < 100)%nat) by (rewrite <- Ly; apply nth_error_Some; congruence). specialize (Hk i Hin). rewrite (nth_error_nth _ _ 0 Hi), Hkd in Hk.
    pose proof (Hnear ((INR i - 1) * (INR i - 1)) (Rle_0_sqr _)). pose proof (Hnear ((INR i - 99) * (INR i - 99)) (Rle_0_sqr _)).
    pose proof (exp_pos (- (100 * ((INR i - 1) * (INR i - 1))))). pose proof (exp_pos (- (100 * ((INR i - 99) * (INR i - 99))))). unfold Rabs. destruct (Rcase_abs y); lra. }
  assert (Hn : forall i, (i < 100)%nat -> nth_error ys i = Some (nth i ys 0)) by (intros; apply nth_error_nth'; lia).
  assert (Y0 : nth 0 ys 0 <= 1 / 50).
  { specialize (Hk O ltac:(lia)). rewrite Hkd in Hk. cbn [INR] in Hk. pose proof (Hexp (100 * ((0 - 1) * (0 - 1))) ltac:(lra)). pose proof (Hexp (100 * ((0 - 99) * (0 - 99))) ltac:(lra)). lra. }
  assert (Y1 : 97 / 100 <= nth 1 ys 0 <= 102 / 100).
  { specialize (Hk 1%nat ltac:(lia)). rewrite Hkd in Hk. cbn [INR] in Hk. pose proof (Hexp (100 * ((1 - 99) * (1 - 99))) ltac:(lra)). pose proof (exp_pos (- (100 * ((1 - 99) * (1 - 99))))).
    assert (exp (- (100 * ((1 - 1) * (1 - 1)))) = 1) by (rewrite <- exp_0; f_equal; lra). lra. }
  assert (Y2 : nth 2 ys 0 <= 1 / 50).
  { specialize (Hk 2%nat ltac:(lia)). rewrite Hkd in Hk. cbn [INR] in Hk. pose proof (Hexp (100 * ((1 + 1 - 1) * (1 + 1 - 1))) ltac:(lra)). pose proof (Hexp (100 * ((1 + 1 - 99) * (1 + 1 - 99))) ltac:(lra)). lra. }
  assert (Y0' : - 1 / 50 <= nth 0 ys 0).
  { specialize (Hk O ltac:(lia)). rewrite Hkd in Hk. cbn [INR] in Hk. pose proof (exp_pos (- (100 * ((0 - 1) * (0 - 1))))). pose proof (exp_pos (- (100 * ((0 - 99) * (0 - 99))))). lra. }
  split; [lia|]. cbn [Nat.sub Nat.add].
  assert (S0 : sample 99 0 = 0) by (unfold sample; cbn [Nat.eqb INR]; field).
  assert (S1 : sample 99 1 = 99 / 100) by (unfold sample; cbn [Nat.eqb INR]; field).
  assert (S2 : sample 99 2 = 198 / 100) by (unfold sample; cbn [Nat.eqb INR]; field).
  rewrite S0, S1, S2.
  destruct (chord_bound xs ys s M 2 0 0 1 _ _ 0 OK Hd HB (Hxn O ltac:(lia)) (Hxn 1%nat ltac:(lia)) (Hn O ltac:(lia)) (Hn 1%nat ltac:(lia)) ltac:(lra)) as (v0 & E0 & V0).
  destruct (chord_bound xs ys s M 2 0 0 1 _ _ (99 / 100) OK Hd HB (Hxn O ltac:(lia)) (Hxn 1%nat ltac:(lia)) (Hn O ltac:(lia)) (Hn 1%nat ltac:(lia)) ltac:(lra)) as (v1 & E1 & V1).
  destruct (chord_bound xs ys s M 2 1 1 (1 + 1) _ _ (198 / 100) OK Hd HB (Hxn 1%nat ltac:(lia)) (Hxn 2%nat ltac:(lia)) (Hn 1%nat ltac:(lia)) (Hn 2%nat ltac:(lia)) ltac:(lra)) as (v2 & E2 & V2).
  rewrite Hf in E0 by lra. rewrite Hf in E1 by lra. rewrite Hf in E2 by lra. injection E0 as ->. injection E1 as ->. injection E2 as ->.
  unfold Rabs in V0, V1, V2. destruct (Rcase_abs _) in V0; destruct (Rcase_abs _) in V1; destruct (Rcase_abs _) in V2; lra.
Qed.

Lemma ex_tree splits : exists kt, new_kde_tree ex_rs ex_phis splits ex_h = Some kt /\ tree_ok ex_rs ex_phis ex_h 99 splits kt.
Proof.
  destruct (new_tree_spec ex_rs ex_phis splits ex_h ex_valid ltac:(unfold ex_h; lra)) as (f & Hf & H).
  assert (Eh : high_of ex_rs = 99). { destruct (high_of_spec ex_rs ltac:(discriminate)) as [A B]. destruct ex_high as [C D]. specialize (B _ C). specialize (D _ A). lra. }
  rewrite Eh in *. destruct H as [[H _]|[_ H]]; [|exact H]. exfalso.
  assert (Hin : In (sample 99 1) (peak_list 99 f)) by (apply peak_list_in; exists 1%nat; split; [now apply ex_peak|reflexivity]). rewrite H in Hin. destruct Hin.
Qed.
