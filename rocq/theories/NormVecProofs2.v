(** * The rejection loop of normVecs ends for every seed. *)
From Coq Require Import NArith ZArith Lia Lra Reals.
From Verif Require Import GoBase GoBaseFacts RealBase LoopBase RandModel RandSpec RandProofs InterpProofs XsProofs NormVecModel NormVecSpec NormVecProofs.
Import List ListNotations.
Local Open Scope R_scope.

Definition U := uniform xs_next (-1) 1.
Lemma U_next g v g' : xs_next g = Some (v, g') -> U g = Some (2 * v - 1, g').
Proof.
  intros E. unfold U, uniform. assert (R0 : Reqb (-1) 0 = false) by (apply Reqb_false; lra). rewrite R0. cbn [andb]. rewrite E. f_equal. f_equal. ring.
Qed.

Lemma draws_U n : forall g vs g', draws xs_next n g = Some (vs, g') -> draws U n g = Some (map (fun v => 2 * v - 1) vs, g').
Proof.
  induction n as [|n IH]; intros g vs g' E; cbn [draws] in *; [injection E as <- <-; reflexivity|].
  destruct (xs_next g) as [[v s]|] eqn:En; [|discriminate]. rewrite (U_next _ _ _ En). destruct (draws xs_next n s) as [[ws s']|] eqn:Ed; [|discriminate].
  injection E as <- <-. rewrite (IH _ _ _ Ed). reflexivity.
Qed.

(** A draw from (-1, 1) is never 0: 2^32 - 1 is odd. *)
Lemma U_ok g : xs_good g -> exists x g', U g = Some (x, g') /\ xs_good g' /\ x <> 0.
Proof.
  intros Hg. destruct (next_step g Hg) as (j & _ & En & _ & _). set (h := N.iter j xs_step g) in *. assert (Hh : xs_good h) by now apply iter_good.
  exists (2 * xs_value h - 1), h. split; [now apply U_next|]. split; [exact Hh|].
  unfold xs_value. change (Z.of_N maxUint32) with 4294967295%Z. intros E.
  assert (E2 : IZR (2 * Z.of_N (maxUint32 - xs_w h)) = IZR 4294967295).
  { rewrite mult_IZR. apply Rmult_eq_reg_r with (/ 4294967295); [|lra]. rewrite Rinv_r by lra. unfold Rdiv in E. lra. }
  apply eq_IZR in E2. lia.
Qed.

Definition attempt (g : xorshift) : option (R * R * R * xorshift) :=
  do (x, g) <- U g; do (y, g) <- U g; do (z, g) <- U g; Some (x, y, z, g).

Lemma attempt_ok g : xs_good g -> exists t g', attempt g = Some (t, g') /\ xs_good g' /\ 0 < squared t /\
  (let '(x, y, z) := t in draws U 3 g = Some ([x; y; z], g')).
Proof.
  intros Hg. unfold attempt. destruct (U_ok g Hg) as (x & g1 & E1 & H1 & N1). rewrite E1. destruct (U_ok g1 H1) as (y & g2 & E2 & H2 & N2). rewrite E2.
  destruct (U_ok g2 H2) as (z & g3 & E3 & H3 & N3). rewrite E3. exists (x, y, z), g3. split; [reflexivity|]. split; [exact H3|]. split.
  - cbn. assert (0 < x * x) by (destruct (Rtotal_order x 0) as [?|[?|?]]; [nra|contradiction|nra]). nra.
  - cbn [draws]. now rewrite E1, E2, E3.
Qed.

Definition dir (t : R * R * R) : R * R * R := let '(x, y, z) := t in let r := sqrt (x * x + y * y + z * z) in (x / r, y / r, z / r).

Lemma pick_S fuel g t g' : attempt g = Some (t, g') -> pick (S fuel) g = if Rltb (sqrt (squared t)) 1 then Some (dir t, g') else pick fuel g'.
Proof.
  unfold attempt. cbn [pick]. fold U. destruct (U g) as [[x g1]|]; [|discriminate]. destruct (U g1) as [[y g2]|]; [|discriminate].
  destruct (U g2) as [[z g3]|]; [|discriminate]. intros E. injection E as <- <-. reflexivity.
Qed.

Lemma ball_test t : 0 < squared t -> (Rltb (sqrt (squared t)) 1 = true -> in_ball t) /\ (Rltb (sqrt (squared t)) 1 = false -> ~ in_ball t).
Proof.
  intros H. assert (Hs : 0 < sqrt (squared t)) by now apply sqrt_lt_R0. assert (E : sqrt (squared t) * sqrt (squared t) = squared t) by (apply sqrt_sqrt; lra).
  unfold in_ball. split; intros Hb; [apply Rltb_true in Hb|apply Rltb_false in Hb]; nra.
Qed.

Lemma dir_points t : 0 < squared t -> points_to t (dir t).
Proof.
  intros H. destruct t as [[x y] z]. cbn in H. assert (Hs : 0 < sqrt (x * x + y * y + z * z)) by now apply sqrt_lt_R0.
  assert (E : sqrt (x * x + y * y + z * z) * sqrt (x * x + y * y + z * z) = x * x + y * y + z * z) by (apply sqrt_sqrt; lra).
  unfold dir. set (r := sqrt (x * x + y * y + z * z)) in *. split.
  - unfold unit, squared. apply Rmult_eq_reg_r with (r * r); [|nra]. rewrite Rmult_1_l. rewrite E at 2. field. lra.
  - exists r. split; [exact Hs|]. repeat split; field; lra.
Qed.

Lemma in_threes_app k : forall l l', length l = (3 * k)%nat -> in_threes (l ++ l') = in_threes l ++ in_threes l'.
Proof.
  induction k as [|k IH]; intros l l' L.
  - destruct l; [reflexivity|cbn in L; lia].
  - destruct l as [|x [|y [|z l]]]; cbn [length] in L; try lia. cbn [in_threes app]. rewrite IH by lia. reflexivity.
Qed.

(** When the loop ends, it has made some attempts that failed and one that did not. *)
Lemma pick_some fuel : forall g v g', xs_good g -> pick fuel g = Some (v, g') ->
  exists k ds t, draws U (3 * k) g = Some (ds, g') /\ length ds = (3 * k)%nat /\ kept (in_threes ds) [t] /\ points_to t v /\ xs_good g'.
Proof.
  induction fuel as [|fuel IH]; intros g v g' Hg E; [discriminate|].
  destruct (attempt_ok g Hg) as (t & g1 & Ea & H1 & Hs & Hd). rewrite (pick_S _ _ _ _ Ea) in E. destruct (ball_test t Hs) as [B1 B2].
  destruct t as [[x y] z]. destruct (Rltb _ 1).
  - injection E as <- <-. exists 1%nat, [x; y; z], (x, y, z). split; [exact Hd|]. split; [reflexivity|].
    split; [cbn [in_threes]; apply k_in; [now apply B1|constructor]|]. split; [now apply dir_points|exact H1].
  - destruct (IH g1 v g' H1 E) as (k & ds & t & Ed & L & K & P & G). exists (S k), ([x; y; z] ++ ds), t.
    split; [replace (3 * S k)%nat with (3 + 3 * k)%nat by lia; apply (draws_app U 3 (3 * k) g _ _ _ _ Hd Ed)|].
    split; [rewrite app_length, L; cbn [length]; lia|]. split; [cbn [app in_threes]; apply k_out; [now apply B2|exact K]|]. now split.
Qed.

(** While it has not ended, all attempts have failed. *)
Lemma pick_none fuel : forall g ds g', xs_good g -> draws U (3 * fuel) g = Some (ds, g') -> pick fuel g = None ->
  forall t, In t (in_threes ds) -> ~ in_ball t.
Proof.
  induction fuel as [|fuel IH]; intros g ds g' Hg Ed E t Ht.
  - cbn [draws Nat.mul] in Ed. injection Ed as <- <-. destruct Ht.
  - destruct (attempt_ok g Hg) as (s & g1 & Ea & H1 & Hs & Hd). rewrite (pick_S _ _ _ _ Ea) in E. destruct (ball_test s Hs) as [_ B2].
    destruct s as [[x y] z]. destruct (Rltb _ 1); [discriminate|].
    assert (G : forall n s, xs_good s -> exists vs s', draws U n s = Some (vs, s')).
    { intros n. induction n as [|n IHn]; intros s Gs; [eexists _, _; reflexivity|]. destruct (U_ok s Gs) as (a & s1 & Ea1 & G1 & _). destruct (IHn s1 G1) as (vs & s2 & E2).
      cbn [draws]. rewrite Ea1, E2. eauto. }
    destruct (G (3 * fuel)%nat g1 H1) as (ds1 & g2 & Ed1). pose proof (draws_app U 3 (3 * fuel) g _ _ _ _ Hd Ed1) as Ed2.
    replace (3 + 3 * fuel)%nat with (3 * S fuel)%nat in Ed2 by lia. rewrite Ed in Ed2. injection Ed2 as -> ->. cbn [app in_threes] in Ht.
    destruct Ht as [<-|Ht]; [now apply B2|]. apply (IH g1 ds1 g2 H1 Ed1 E t Ht).
Qed.

Lemma pick_mono fuel : forall fuel' g r, (fuel <= fuel')%nat -> xs_good g -> pick fuel g = Some r -> pick fuel' g = Some r.
Proof.
  induction fuel as [|fuel IH]; intros fuel' g r Hf Hg E; [discriminate|]. destruct fuel' as [|fuel']; [lia|].
  destruct (attempt_ok g Hg) as (t & g1 & Ea & H1 & _). rewrite (pick_S _ _ _ _ Ea) in E. rewrite (pick_S _ _ _ _ Ea). destruct (Rltb _ 1); [exact E|]. apply IH; auto. lia.
Qed.

(** Five draws in a row of which any three in a row are in the ball. *)
Definition good_state : xorshift := state4 2198862416 2137211451 2130723093 2260013650.
Definition five : list R := [wvalue 2198862416; wvalue 2137211451; wvalue 2130723093; wvalue 2260013650; wvalue 2056562094].

Lemma stretch g : xs_good g -> exists m vs g', draws xs_next (m + 5) g = Some (vs ++ five, g') /\ length vs = m.
Proof.
  intros Hg. destruct (quad g 2198862416 2137211451 2130723093 2260013650 Hg) as (m & vs & Ed & L); try (split; reflexivity).
  fold good_state in Ed. assert (G : xs_good good_state). { split; [repeat split; reflexivity|]. intros (E & _). discriminate. }
  assert (E1 : xs_next good_state = Some (wvalue 2056562094, xs_step good_state)).
  { rewrite (next_one good_state G); [|vm_compute; discriminate]. replace (xs_w (xs_step good_state)) with 2056562094%N by (vm_compute; reflexivity). reflexivity. }
  exists m, vs, (xs_step good_state). split; [|exact L]. replace (m + 5)%nat with (m + 4 + 1)%nat by lia.
  assert (D1 : draws xs_next 1 good_state = Some ([wvalue 2056562094], xs_step good_state)) by (cbn [draws]; rewrite E1; reflexivity).
  rewrite (draws_app xs_next (m + 4) 1 g _ _ _ _ Ed D1). rewrite <- app_assoc. reflexivity.
Qed.

Lemma wv a : (a <= maxUint32)%N -> wvalue a = (4294967295 - IZR (Z.of_N a)) / 4294967295.
Proof.
  intros H. unfold wvalue. change (Z.of_N maxUint32) with 4294967295%Z. rewrite N2Z.inj_sub by exact H. rewrite minus_IZR. reflexivity.
Qed.

Lemma five_near : Forall (fun v => -1 / 4 < 2 * v - 1 < 1 / 4) five.
Proof. unfold five. repeat constructor; rewrite wv by (vm_compute; discriminate); cbn [Z.of_N]; lra. Qed.

Lemma near_ball x y z : -1 / 4 < x < 1 / 4 -> -1 / 4 < y < 1 / 4 -> -1 / 4 < z < 1 / 4 -> in_ball (x, y, z).
Proof. intros. unfold in_ball, squared. nra. Qed.

Lemma pick_ends g : xs_good g -> exists fuel v g', pick fuel g = Some (v, g').
Proof.
  intros Hg. destruct (stretch g Hg) as (m & vs & g1 & Ed & L). apply draws_U in Ed. rewrite map_app in Ed. set (ws := map _ vs) in Ed.
  assert (Lw : length ws = m) by (unfold ws; now rewrite map_length). pose proof five_near as F.
  assert (A : exists a b c d e, map (fun v => 2 * v - 1) five = [a; b; c; d; e] /\ (-1/4 < a < 1/4) /\ (-1/4 < b < 1/4) /\ (-1/4 < c < 1/4) /\ (-1/4 < d < 1/4) /\ (-1/4 < e < 1/4)).
  { unfold five in F |- *. cbn [map]. do 5 eexists. split; [reflexivity|]. inversion F as [|? ? P1 F1]; subst. inversion F1 as [|? ? P2 F2]; subst. inversion F2 as [|? ? P3 F3]; subst.
    inversion F3 as [|? ? P4 F4]; subst. inversion F4 as [|? ? P5 F5]; subst. auto. }
  destruct A as (a & b & c & d & e & E5 & Ha & Hb & Hc & Hd & He). rewrite E5 in Ed. clear F E5.
  assert (Split : exists k p t q, draws U (3 * k) g = Some (p ++ t, q) /\ (exists i, length p = (3 * i)%nat) /\ exists x y z, t = [x; y; z] /\ in_ball (x, y, z)).
  { assert (Cut : forall n l1 l2 g', draws U (length l1 + n) g = Some (l1 ++ l2, g') -> length l2 = n -> exists q, draws U (length l1) g = Some (l1, q)).
    { clear. intros n l1. revert g. induction l1 as [|x l1 IH]; intros g l2 g' E L; [exists g; reflexivity|]. cbn [length Nat.add draws app] in *.
      destruct (U g) as [[v s]|]; [|discriminate]. destruct (draws U (length l1 + n) s) as [[r s']|] eqn:E'; [|discriminate]. injection E as -> -> ->.
      destruct (IH s l2 g' E' L) as (q & Eq). rewrite Eq. eauto. }
    assert (Hm : exists k, m = (3 * k)%nat \/ m = (3 * k + 1)%nat \/ m = (3 * k + 2)%nat).
    { exists (m / 3)%nat. pose proof (Nat.div_mod m 3 ltac:(lia)). pose proof (Nat.mod_upper_bound m 3 ltac:(lia)). lia. }
    destruct Hm as (k & [Hm|[Hm|Hm]]).
    - destruct (Cut 2%nat (ws ++ [a; b; c]) [d; e] g1) as (q & Eq).
      + rewrite app_length, Lw. cbn [length]. rewrite <- app_assoc. cbn [app]. replace (m + 3 + 2)%nat with (m + 5)%nat by lia. exact Ed.
      + reflexivity.
      + rewrite app_length, Lw in Eq. cbn [length] in Eq. exists (k + 1)%nat, ws, [a; b; c], q. replace (3 * (k + 1))%nat with (m + 3)%nat by lia.
        split; [exact Eq|]. split; [exists k; lia|]. exists a, b, c. split; [reflexivity|]. now apply near_ball.
    - destruct (Cut 0%nat (ws ++ [a; b; c; d; e]) [] g1) as (q & Eq).
      + rewrite app_length, Lw, app_nil_r. cbn [length]. replace (m + 5 + 0)%nat with (m + 5)%nat by lia. exact Ed.
      + reflexivity.
      + rewrite app_length, Lw in Eq. cbn [length] in Eq. exists (k + 2)%nat, (ws ++ [a; b]), [c; d; e], q. replace (3 * (k + 2))%nat with (m + 5)%nat by lia.
        split; [rewrite <- app_assoc; exact Eq|]. split; [exists (k + 1)%nat; rewrite app_length, Lw; cbn [length]; lia|]. exists c, d, e. split; [reflexivity|]. now apply near_ball.
    - destruct (Cut 1%nat (ws ++ [a; b; c; d]) [e] g1) as (q & Eq).
      + rewrite app_length, Lw. cbn [length]. rewrite <- app_assoc. cbn [app]. replace (m + 4 + 1)%nat with (m + 5)%nat by lia. exact Ed.
      + reflexivity.
      + rewrite app_length, Lw in Eq. cbn [length] in Eq. exists (k + 2)%nat, (ws ++ [a]), [b; c; d], q. replace (3 * (k + 2))%nat with (m + 4)%nat by lia.
        split; [rewrite <- app_assoc; exact Eq|]. split; [exists (k + 1)%nat; rewrite app_length, Lw; cbn [length]; lia|]. exists b, c, d. split; [reflexivity|]. now apply near_ball. }
  destruct Split as (k & p & t & q & Ek & (i & Hi) & x & y & z & -> & Hball).
  destruct (pick k g) as [[v g']|] eqn:Ep; [eauto|]. exfalso. apply (pick_none k g _ _ Hg Ek Ep (x, y, z)); [|exact Hball].
  rewrite (in_threes_app i) by exact Hi. apply in_or_app. right. now left.
Qed.

Lemma kept_app l1 k1 : kept l1 k1 -> forall l2 k2, kept l2 k2 -> kept (l1 ++ l2) (k1 ++ k2).
Proof. induction 1 as [|t l k Hb H IH|t l k Hb H IH]; intros l2 k2 H2; cbn [app]; [exact H2|apply k_in; auto|apply k_out; auto]. Qed.

Lemma pick_all_some fuel n : forall g vs g', xs_good g -> pick_all fuel n g = Some (vs, g') ->
  length vs = n /\ exists k ds ts, draws U (3 * k) g = Some (ds, g') /\ length ds = (3 * k)%nat /\ kept (in_threes ds) ts /\ Forall2 points_to ts vs.
Proof.
  induction n as [|n IH]; intros g vs g' Hg E; cbn [pick_all] in E.
  - injection E as <- <-. split; [reflexivity|]. exists O, [], []. repeat split; constructor.
  - destruct (pick fuel g) as [[v g1]|] eqn:Ep; [|discriminate]. destruct (pick_all fuel n g1) as [[ws g2]|] eqn:Ea; [|discriminate]. injection E as <- <-.
    destruct (pick_some _ _ _ _ Hg Ep) as (k1 & ds1 & t & D1 & L1 & K1 & P1 & G1). destruct (IH _ _ _ G1 Ea) as (L & k2 & ds2 & ts & D2 & L2 & K2 & P2).
    split; [cbn; lia|]. exists (k1 + k2)%nat, (ds1 ++ ds2), (t :: ts). replace (3 * (k1 + k2))%nat with (3 * k1 + 3 * k2)%nat by lia.
    split; [now apply (draws_app U (3 * k1) (3 * k2) g _ g1 _ g2)|]. split; [rewrite app_length; lia|].
    split; [rewrite (in_threes_app k1) by exact L1; apply (kept_app _ [t]); assumption|]. now constructor.
Qed.

Lemma pick_all_mono fuel fuel' n : (fuel <= fuel')%nat -> forall g r, xs_good g -> pick_all fuel n g = Some r -> pick_all fuel' n g = Some r.
Proof.
  intros Hf. induction n as [|n IH]; intros g r Hg E; cbn [pick_all] in *; [exact E|].
  destruct (pick fuel g) as [[v g1]|] eqn:Ep; [|discriminate]. rewrite (pick_mono _ _ _ _ Hf Hg Ep). destruct (pick_some _ _ _ _ Hg Ep) as (? & ? & ? & _ & _ & _ & _ & G1).
  destruct (pick_all fuel n g1) as [[ws g2]|] eqn:Ea; [|discriminate]. rewrite (IH _ _ G1 Ea). exact E.
Qed.

Lemma pick_all_ends n : forall g, xs_good g -> exists fuel r, pick_all fuel n g = Some r.
Proof.
  induction n as [|n IH]; intros g Hg; [exists O; eexists; reflexivity|]. destruct (pick_ends g Hg) as (f1 & v & g1 & E1).
  destruct (pick_some _ _ _ _ Hg E1) as (? & ? & ? & _ & _ & _ & _ & G1). destruct (IH g1 G1) as (f2 & [ws g2] & E2).
  exists (Nat.max f1 f2). cbn [pick_all]. rewrite (pick_mono f1 _ g _ (Nat.le_max_l f1 f2) Hg E1).
  rewrite (pick_all_mono f2 _ n (Nat.le_max_r f1 f2) g1 _ G1 E2). eauto.
Qed.
