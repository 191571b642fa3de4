(** * C212: rounding in the directions of the rings *)
From Coq Require Import Reals Lra Lia List Bool ZArith NArith Psatz.
From Flocq Require Import Core.
From Verif Require Import RealBase LoopBase LoopFacts InterpProofs RandModel RandSpec RandProofs RoundModel XsProofs NormVecSpec NormVecProofs NormVecProofs2 Props_Round RoundRandModel Props_NormVec Props_RoundRand RoundNormModel.
Import List ListNotations.
Local Open Scope R_scope.

(** ** Specification *)

(** The points of a list that are taken, in order: those in the unit ball, with 2^-45 of doubt at its surface. *)
Inductive taken : list (R * R * R) -> list (R * R * R) -> Prop :=
| t_nil : taken [] []
| t_in : forall t l k, squared t < 1 + / 2 ^ 45 -> taken l k -> taken (t :: l) (t :: k)
| t_out : forall t l k, 1 - / 2 ^ 45 <= squared t -> taken l k -> taken (t :: l) k.

(** v has length 1 and the direction of t, up to the precision of float32. *)
Definition points_near (t v : R * R * R) : Prop :=
  Rabs (squared v - 1) <= / 2 ^ 21 /\
  exists s, 0 < s /\ s * s = squared t /\ let '(x, y, z) := t in let '(a, b, c) := v in
    Rabs (s * a - x) <= / 2 ^ 23 * Rabs x /\ Rabs (s * b - y) <= / 2 ^ 23 * Rabs y /\ Rabs (s * c - z) <= / 2 ^ 23 * Rabs z.

(** d is the number 2e - 1 that exact arithmetic gives, up to 2^-48. *)
Definition near_draw (e d : R) : Prop := Rabs (d - (2 * e - 1)) <= / 2 ^ 48.

(** ** Proofs *)
Section Acc.
Variable M : machine.
Hypothesis HM : accurate M.
Hypothesis H1 : r64 M 1 = 1.

Definition FU := f_uniform M (-1) 1.

Lemma FU_ok g : xs_good g -> exists e x g', FU g = Some (x, g') /\ xs_next g = Some (e, g') /\ xs_good g' /\ x <> 0 /\ near_draw e x.
Proof.
  intros Hg. pose proof v_val as Hv. destruct (f_next_ok M HM H1 g Hg) as (e & f & g' & E1 & E2 & G & B & A & _). destruct (U_ok g Hg) as (x0 & g0 & Eu & _ & _).
  rewrite (U_next _ _ _ E1) in Eu. clear Eu x0 g0. destruct (next_value g Hg) as (e' & g0 & E1' & _ & (j & Hj & Ej)). rewrite E1 in E1'. injection E1' as <- <-.
  unfold FU, f_uniform. assert (R0 : Reqb (-1) 0 = false) by (apply Reqb_false; lra). rewrite R0. cbn [andb]. rewrite E2.
  replace (1 - -1) with 2 by ring. pose proof (r64_abs M HM 2 2 ltac:(rewrite Rabs_pos_eq; lra)) as ED. set (D := r64 M 2) in *. clearbody D. apply Rabs_le_inv in ED. apply Rabs_le_inv in A.
  assert (BfD : Rabs (f * D - 2 * f) <= 2 * v). { replace (f * D - 2 * f) with (f * (D - 2)) by ring. rewrite Rabs_mult, (Rabs_pos_eq f) by lra. assert (Rabs (D - 2) <= 2 * v) by (apply Rabs_le; lra). pose proof (Rabs_pos (D - 2)).
    replace (2 * v) with (1 * (2 * v)) by ring. apply Rmult_le_compat; lra. }
  apply Rabs_le_inv in BfD. assert (B3 : Rabs (f * D) <= 3) by (apply Rabs_le; lra). pose proof (r64_abs M HM _ _ B3) as EP. set (p := r64 M (f * D)) in *. clearbody p. apply Rabs_le_inv in EP.
  assert (Ep : - (7 * v) <= p - 2 * e <= 7 * v) by lra. assert (B4 : Rabs (p + -1) <= 2) by (apply Rabs_le; lra). pose proof (r64_abs M HM _ _ B4) as EX.
  assert (Nz : / 4294967295 <= Rabs (2 * e - 1)).
  { rewrite Ej. replace (2 * (IZR j / 4294967295) - 1) with (IZR (2 * j - 4294967295) * / 4294967295). 2:{ rewrite minus_IZR, mult_IZR. field. }
    rewrite Rabs_mult, (Rabs_pos_eq (/ 4294967295)) by lra. rewrite <- (Rmult_1_l (/ 4294967295)) at 1. apply Rmult_le_compat_r; [lra|]. rewrite <- abs_IZR. apply (IZR_le 1). lia. }
  set (x := r64 M (p + -1)) in *. clearbody x. apply Rabs_le_inv in EX. assert (Ex : Rabs (x - (2 * e - 1)) <= 10 * v) by (apply Rabs_le; lra).
  exists e, x, g'. split; [reflexivity|]. split; [exact E1|]. split; [exact G|]. split.
  - intros ->. rewrite <- Rabs_Ropp in Ex. replace (- (0 - (2 * e - 1))) with (2 * e - 1) in Ex by ring. lra.
  - unfold near_draw. eapply Rle_trans; [exact Ex|]. unfold v. lra.
Qed.

(** The computed radius. *)
Lemma sq_pos x : 0 <= x * x. Proof. pose proof (Rle_0_sqr x) as H. exact H. Qed.

Lemma sum_rel a b ka kb a' b' : 0 <= a -> 0 <= b -> 0 <= ka <= kb -> kb <= / 4 -> a * (1 - ka) <= a' <= a * (1 + ka) -> b * (1 - kb) <= b' <= b * (1 + kb) ->
  (a + b) * (1 - (kb + 2 * v)) <= r64 M (a' + b') <= (a + b) * (1 + (kb + 2 * v)).
Proof.
  intros Ha Hb Hk Hk4 A B. pose proof v_val as Hv. assert (A' : a * (1 - kb) <= a' <= a * (1 + kb)) by (split; nra).
  assert (P : 0 <= a' + b') by nra. pose proof (r64_rel M HM _ P) as E. set (s := r64 M (a' + b')) in *. clearbody s.
  assert (S1 : (a + b) * (1 - kb) <= a' + b' <= (a + b) * (1 + kb)) by lra. set (t := a' + b') in *. clearbody t. set (c := a + b) in *. assert (Pc : 0 <= c) by (unfold c; lra). clearbody c.
  assert (V : 0 <= c * (kb * v) <= c * v). { split; [apply Rmult_le_pos; nra|]. apply Rmult_le_compat_l; nra. } split.
  - apply Rle_trans with (t * (1 - v)); [|lra]. apply Rle_trans with (c * (1 - kb) * (1 - v)); [|apply Rmult_le_compat_r; lra]. lra.
  - apply Rle_trans with (t * (1 + v)); [lra|]. apply Rle_trans with (c * (1 + kb) * (1 + v)); [apply Rmult_le_compat_r; lra|]. lra.
Qed.

Lemma radius_rel x y z : let q := x * x + y * y + z * z in 0 < q -> sqrt q * (1 - 8 * v) <= f_radius M x y z <= sqrt q * (1 + 8 * v).
Proof.
  intros q Hq. pose proof v_val as Hv. unfold f_radius. pose proof (r64_rel M HM _ (sq_pos x)) as Ex. pose proof (r64_rel M HM _ (sq_pos y)) as Ey. pose proof (r64_rel M HM _ (sq_pos z)) as Ez.
  pose proof (sum_rel _ _ v v _ _ (sq_pos x) (sq_pos y) ltac:(lra) ltac:(lra) Ex Ey) as Exy.
  assert (Pxy : 0 <= x * x + y * y) by (pose proof (sq_pos x); pose proof (sq_pos y); lra).
  assert (Ez' : z * z * (1 - (v + 2 * v)) <= r64 M (z * z) <= z * z * (1 + (v + 2 * v))). { pose proof (sq_pos z) as Pz. assert (0 <= z * z * (2 * v)) by (apply Rmult_le_pos; lra). lra. }
  pose proof (sum_rel _ _ (v + 2 * v) (v + 2 * v) _ _ Pxy (sq_pos z) ltac:(lra) ltac:(lra) Exy Ez') as Es. fold q in Es. set (s := r64 M (r64 M (r64 M (x * x) + r64 M (y * y)) + r64 M (z * z))) in *. clearbody s.
  assert (K : v + 2 * v + 2 * v = 5 * v) by ring. rewrite K in Es. assert (Pq : 0 <= sqrt q) by apply sqrt_pos. assert (Qq : sqrt q * sqrt q = q) by (apply sqrt_sqrt; lra).
  assert (Ps : 0 <= s). { apply Rle_trans with (q * (1 - 5 * v)); [apply Rmult_le_pos; lra|lra]. }
  assert (L : sqrt q * (1 - 5 * v) <= sqrt s). { rewrite <- (sqrt_square (sqrt q * (1 - 5 * v))) by (apply Rmult_le_pos; lra). apply sqrt_le_1; [apply Rmult_le_pos; apply Rmult_le_pos; lra|exact Ps|].
    replace (sqrt q * (1 - 5 * v) * (sqrt q * (1 - 5 * v))) with (q * ((1 - 5 * v) * (1 - 5 * v))) by (rewrite <- Qq at 1; ring). apply Rle_trans with (q * (1 - 5 * v)); [apply Rmult_le_compat_l; nra|lra]. }
  assert (U : sqrt s <= sqrt q * (1 + 5 * v)). { rewrite <- (sqrt_square (sqrt q * (1 + 5 * v))) by (apply Rmult_le_pos; lra). apply sqrt_le_1; [exact Ps|apply Rmult_le_pos; apply Rmult_le_pos; lra|].
    replace (sqrt q * (1 + 5 * v) * (sqrt q * (1 + 5 * v))) with (q * ((1 + 5 * v) * (1 + 5 * v))) by (rewrite <- Qq at 1; ring). apply Rle_trans with (q * (1 + 5 * v)); [lra|apply Rmult_le_compat_l; nra]. }
  pose proof (r64_rel M HM (sqrt s) (sqrt_pos s)) as Er. set (r := r64 M (sqrt s)) in *. clearbody r. set (m := sqrt q) in *. clearbody m. set (w := sqrt s) in *. clearbody w.
  assert (V2 : 0 <= m * (v * v) <= m * (/ 10 * v)). { split; [apply Rmult_le_pos; nra|apply Rmult_le_compat_l; nra]. } split.
  - apply Rle_trans with (w * (1 - v)); [|lra]. apply Rle_trans with (m * (1 - 5 * v) * (1 - v)); [|apply Rmult_le_compat_r; lra]. lra.
  - apply Rle_trans with (w * (1 + v)); [lra|]. apply Rle_trans with (m * (1 + 5 * v) * (1 + v)); [apply Rmult_le_compat_r; lra|]. lra.
Qed.

Definition f_dir (t : R * R * R) : R * R * R := let '(x, y, z) := t in let r := f_radius M x y z in (r32 M (r64 M (x / r)), r32 M (r64 M (y / r)), r32 M (r64 M (z / r))).
Definition f_ball (t : R * R * R) : bool := let '(x, y, z) := t in Rltb (f_radius M x y z) 1.

Lemma f_ball_test t : 0 < squared t -> (f_ball t = true -> squared t < 1 + / 2 ^ 45) /\ (f_ball t = false -> 1 - / 2 ^ 45 <= squared t).
Proof.
  destruct t as [[x y] z]. cbn [squared f_ball]. intros Hs. pose proof v_val as Hv. pose proof (radius_rel x y z Hs) as Hr. set (q := x * x + y * y + z * z) in *. clearbody q.
  assert (Pq : 0 < sqrt q) by now apply sqrt_lt_R0. assert (Qq : sqrt q * sqrt q = q) by (apply sqrt_sqrt; lra). set (r := f_radius M x y z) in *. clearbody r. set (m := sqrt q) in *. clearbody m.
  assert (V45 : 20 * v <= / 2 ^ 45) by (unfold v; lra). split; intros Hb; [apply Rltb_true in Hb|apply Rltb_false in Hb].
  - assert (Hm : m < 1 + 9 * v). { apply (Rmult_lt_reg_r (1 - 8 * v)); [lra|]. apply Rle_lt_trans with r; [lra|]. apply Rlt_le_trans with 1; [exact Hb|]. nra. }
    rewrite <- Qq. apply Rlt_le_trans with ((1 + 9 * v) * (1 + 9 * v)); [apply Rmult_le_0_lt_compat; lra|]. nra.
  - assert (Hm : 1 - 8 * v <= m). { apply (Rmult_le_reg_r (1 + 8 * v)); [lra|]. apply Rle_trans with r; [|lra]. apply Rle_trans with 1; [nra|exact Hb]. }
    rewrite <- Qq. apply Rle_trans with ((1 - 8 * v) * (1 - 8 * v)); [nra|]. apply Rmult_le_compat; lra.
Qed.

Lemma u_small : / 2 ^ 24 * (1 + / 2 ^ 10) + / 2 ^ 40 <= / 2 ^ 23. Proof. lra. Qed.

Lemma coord_near m r x : 0 < m -> m * (1 - 8 * v) <= r <= m * (1 + 8 * v) -> Rabs (m * r32 M (r64 M (x / r)) - x) <= / 2 ^ 23 * Rabs x.
Proof.
  intros Pm Hr. pose proof v_val as Hv. assert (V8 : 0 < m * (1 - 8 * v)) by (apply Rmult_lt_0_compat; lra). assert (Pr : 0 < r) by lra.
  assert (Em : Rabs (m / r - 1) <= 10 * v). { assert (E : m / r - 1 = (m - r) * / r) by (field; lra). rewrite E, Rabs_mult, (Rabs_pos_eq (/ r)) by (left; now apply Rinv_0_lt_compat).
    apply (Rmult_le_reg_r r); [exact Pr|]. rewrite Rmult_assoc, Rinv_l, Rmult_1_r by lra. apply Rle_trans with (8 * v * m); [apply Rabs_le; lra|]. apply Rle_trans with (10 * v * (m * (1 - 8 * v))); [|apply Rmult_le_compat_l; lra]. nra. }
  destruct HM as (A32 & A64 & _). pose proof (A64 (x / r)) as E1. set (a := x / r) in *. pose proof (A32 (r64 M a)) as E2. set (b := r64 M a) in *. set (c := r32 M b) in *.
  assert (Ea : m * a = x * (m / r)) by (unfold a; field; lra). clearbody a b c. set (k := m / r) in *. clearbody k.
  assert (X1 : Rabs (m * a - x) <= 10 * v * Rabs x). { rewrite Ea. replace (x * k - x) with ((k - 1) * x) by ring. rewrite Rabs_mult. apply Rmult_le_compat_r; [apply Rabs_pos|exact Em]. }
  pose proof (Rabs_pos x) as Px. set (X := Rabs x) in *.
  assert (XA : Rabs (m * a) <= X + 10 * v * X). { replace (m * a) with (x + (m * a - x)) by ring. eapply Rle_trans; [apply Rabs_triang|]. fold X. lra. }
  assert (XB0 : Rabs (m * b - m * a) <= / 2 ^ 53 * Rabs (m * a)). { rewrite <- Rmult_minus_distr_l, !Rabs_mult, (Rabs_pos_eq m) by lra. apply Rle_trans with (m * (/ 2 ^ 53 * Rabs a)); [apply Rmult_le_compat_l; lra|lra]. }
  assert (XC0 : Rabs (m * c - m * b) <= / 2 ^ 24 * Rabs (m * b)). { rewrite <- Rmult_minus_distr_l, !Rabs_mult, (Rabs_pos_eq m) by lra. apply Rle_trans with (m * (/ 2 ^ 24 * Rabs b)); [apply Rmult_le_compat_l; lra|lra]. }
  assert (Vx : 0 <= v * X <= / 2 ^ 50 * X). { split; [apply Rmult_le_pos; lra|apply Rmult_le_compat_r; [lra|unfold v; lra]]. }
  assert (XB : Rabs (m * b) <= X + / 2 ^ 40 * X). { replace (m * b) with (m * a + (m * b - m * a)) by ring. eapply Rle_trans; [apply Rabs_triang|].
    assert (/ 2 ^ 53 * Rabs (m * a) <= / 2 ^ 53 * (2 * X)) by (apply Rmult_le_compat_l; lra). lra. }
  replace (m * c - x) with ((m * c - m * b) + ((m * b - m * a) + (m * a - x))) by ring. eapply Rle_trans; [apply Rabs_triang|].
  assert (T2 : Rabs ((m * b - m * a) + (m * a - x)) <= / 2 ^ 40 * X). { eapply Rle_trans; [apply Rabs_triang|]. assert (/ 2 ^ 53 * Rabs (m * a) <= / 2 ^ 53 * (2 * X)) by (apply Rmult_le_compat_l; lra). lra. }
  assert (T1 : / 2 ^ 24 * Rabs (m * b) <= / 2 ^ 24 * (X + / 2 ^ 40 * X)) by (apply Rmult_le_compat_l; lra).
  assert (F : (/ 2 ^ 24 * (1 + / 2 ^ 10) + / 2 ^ 40) * X <= / 2 ^ 23 * X) by (apply Rmult_le_compat_r; [lra|exact u_small]). lra.
Qed.

Lemma sq_close s a x k : 0 <= k <= / 4 -> Rabs (s * a - x) <= k * Rabs x -> Rabs (s * s * (a * a) - x * x) <= 3 * k * (x * x).
Proof.
  intros Hk H. replace (s * s * (a * a) - x * x) with ((s * a - x) * (s * a + x)) by ring. rewrite Rabs_mult. assert (E : x * x = Rabs x * Rabs x) by (rewrite <- Rabs_mult; symmetry; apply Rabs_pos_eq, sq_pos). rewrite E.
  assert (P : Rabs (s * a + x) <= 3 * Rabs x). { replace (s * a + x) with ((s * a - x) + 2 * x) by ring. eapply Rle_trans; [apply Rabs_triang|]. rewrite (Rabs_mult 2), (Rabs_pos_eq 2) by lra. pose proof (Rabs_pos x). nra. }
  pose proof (Rabs_pos (s * a - x)). pose proof (Rabs_pos (s * a + x)). apply Rle_trans with (k * Rabs x * (3 * Rabs x)); [apply Rmult_le_compat; assumption|]. lra.
Qed.

Lemma f_dir_points t : 0 < squared t -> points_near t (f_dir t).
Proof.
  destruct t as [[x y] z]. cbn [squared f_dir]. intros Hs. pose proof (radius_rel x y z Hs) as Hr. set (q := x * x + y * y + z * z) in *.
  assert (Pq : 0 < sqrt q) by now apply sqrt_lt_R0. assert (Qq : sqrt q * sqrt q = q) by (apply sqrt_sqrt; lra). cbv zeta. set (r := f_radius M x y z) in *. clearbody r. set (m := sqrt q) in *. clearbody m.
  pose proof (coord_near m r x Pq Hr) as Cx. pose proof (coord_near m r y Pq Hr) as Cy. pose proof (coord_near m r z Pq Hr) as Cz.
  set (a := r32 M (r64 M (x / r))) in *. set (b := r32 M (r64 M (y / r))) in *. set (c := r32 M (r64 M (z / r))) in *. clearbody a b c. split.
  - assert (K23 : 0 <= / 2 ^ 23 <= / 4) by lra. cbn [squared]. pose proof (sq_close m a x (/ 2 ^ 23) K23 Cx) as Sx. pose proof (sq_close m b y (/ 2 ^ 23) K23 Cy) as Sy. pose proof (sq_close m c z (/ 2 ^ 23) K23 Cz) as Sz.
    apply Rabs_le_inv in Sx. apply Rabs_le_inv in Sy. apply Rabs_le_inv in Sz.
    assert (T : Rabs (q * (a * a + b * b + c * c - 1)) <= q * (3 * / 2 ^ 23)). { apply Rabs_le. rewrite Qq in Sx, Sy, Sz. clear Hr Qq. unfold q in *. split; lra. }
    rewrite Rabs_mult, (Rabs_pos_eq q) in T by lra. apply Rmult_le_reg_l in T; [|exact Hs]. eapply Rle_trans; [exact T|]. lra.
  - exists m. split; [exact Pq|]. split; [exact Qq|]. split; [exact Cx|]. split; [exact Cy|exact Cz].
Qed.

(** *** The loops *)
Definition f_attempt (g : xorshift) : option (R * R * R * xorshift) :=
  do (x, g) <- FU g; do (y, g) <- FU g; do (z, g) <- FU g; Some (x, y, z, g).

Lemma f_attempt_ok g : xs_good g -> exists t g' es, f_attempt g = Some (t, g') /\ xs_good g' /\ 0 < squared t /\
  draws xs_next 3 g = Some (es, g') /\ (let '(x, y, z) := t in draws FU 3 g = Some ([x; y; z], g') /\ Forall2 near_draw es [x; y; z]).
Proof.
  intros Hg. unfold f_attempt. destruct (FU_ok g Hg) as (e1 & x & g1 & E1 & X1 & G1 & N1 & D1). rewrite E1. destruct (FU_ok g1 G1) as (e2 & y & g2 & E2 & X2 & G2 & N2 & D2). rewrite E2.
  destruct (FU_ok g2 G2) as (e3 & z & g3 & E3 & X3 & G3 & N3 & D3). rewrite E3. exists (x, y, z), g3, [e1; e2; e3]. split; [reflexivity|]. split; [exact G3|]. split; [|split].
  - cbn [squared]. assert (0 < x * x) by (destruct (Rtotal_order x 0) as [?|[?|?]]; [nra|contradiction|nra]). pose proof (sq_pos y). pose proof (sq_pos z). lra.
  - cbn [draws]. now rewrite X1, X2, X3.
  - split; [cbn [draws]; now rewrite E1, E2, E3|]. apply Forall2_cons; [exact D1|]. apply Forall2_cons; [exact D2|]. apply Forall2_cons; [exact D3|]. apply Forall2_nil.
Qed.

Lemma f_pick_S fuel g t g' : f_attempt g = Some (t, g') -> f_pick M (S fuel) g = if f_ball t then Some (f_dir t, g') else f_pick M fuel g'.
Proof.
  unfold f_attempt. cbn [f_pick]. fold FU. destruct (FU g) as [[x g1]|]; [|discriminate]. destruct (FU g1) as [[y g2]|]; [|discriminate].
  destruct (FU g2) as [[z g3]|]; [|discriminate]. intros E. injection E as <- <-. reflexivity.
Qed.

(** The runs of both generators side by side. *)
Definition runs (n : nat) (g : xorshift) (es ds : list R) (g' : xorshift) : Prop :=
  draws xs_next n g = Some (es, g') /\ draws FU n g = Some (ds, g') /\ length ds = n /\ Forall2 near_draw es ds /\ xs_good g'.

Lemma runs_app n m g es ds g1 es' ds' g2 : runs n g es ds g1 -> runs m g1 es' ds' g2 -> runs (n + m) g (es ++ es') (ds ++ ds') g2.
Proof.
  intros (A1 & A2 & A3 & A4 & _) (B1 & B2 & B3 & B4 & G). split; [|split; [|split; [|split]]].
  - exact (draws_app xs_next n m g _ _ _ _ A1 B1).
  - exact (draws_app FU n m g _ _ _ _ A2 B2).
  - rewrite app_length. lia.
  - now apply Forall2_app.
  - exact G.
Qed.

Lemma attempt_runs g t g' es : xs_good g' -> draws xs_next 3 g = Some (es, g') -> (let '(x, y, z) := t in draws FU 3 g = Some ([x; y; z], g') /\ Forall2 near_draw es [x; y; z]) ->
  let '(x, y, z) := t in runs 3 g es [x; y; z] g'.
Proof. destruct t as [[x y] z]. intros G E (D & F). split; [exact E|]. split; [exact D|]. split; [reflexivity|]. split; [exact F|exact G]. Qed.

Lemma f_pick_some fuel : forall g v g', xs_good g -> f_pick M fuel g = Some (v, g') ->
  exists k es ds t, runs (3 * k) g es ds g' /\ taken (in_threes ds) [t] /\ points_near t v.
Proof.
  induction fuel as [|fuel IH]; intros g v g' Hg E; [discriminate|].
  destruct (f_attempt_ok g Hg) as (t & g1 & es1 & Ea & G1 & Hs & X1 & D1). rewrite (f_pick_S _ _ _ _ Ea) in E. destruct (f_ball_test t Hs) as [B1 B2]. pose proof (attempt_runs g t g1 es1 G1 X1 D1) as R1.
  destruct (f_ball t) eqn:Eb.
  - injection E as <- <-. destruct t as [[x y] z]. exists 1%nat, es1, [x; y; z], (x, y, z). split; [exact R1|].
    split; [cbn [in_threes]; apply t_in; [now apply B1|constructor]|now apply f_dir_points].
  - destruct (IH g1 v g' G1 E) as (k & es & ds & t' & R & K & P). destruct t as [[x y] z]. exists (S k), (es1 ++ es), ([x; y; z] ++ ds), t'.
    split; [replace (3 * S k)%nat with (3 + 3 * k)%nat by lia; exact (runs_app _ _ _ _ _ _ _ _ _ R1 R)|]. split; [cbn [app in_threes]; apply t_out; [now apply B2|exact K]|exact P].
Qed.

Lemma f_pick_none fuel : forall g es g', xs_good g -> draws xs_next (3 * fuel) g = Some (es, g') -> f_pick M fuel g = None ->
  forall x y z, In (x, y, z) (in_threes es) -> exists x' y' z', near_draw x x' /\ near_draw y y' /\ near_draw z z' /\ 1 - / 2 ^ 45 <= squared (x', y', z').
Proof.
  induction fuel as [|fuel IH]; intros g es g' Hg Ed E x y z Ht.
  - cbn [draws Nat.mul] in Ed. injection Ed as <- <-. destruct Ht.
  - destruct (f_attempt_ok g Hg) as (t & g1 & es1 & Ea & G1 & Hs & X1 & D1). rewrite (f_pick_S _ _ _ _ Ea) in E. destruct (f_ball_test t Hs) as [_ B2]. destruct (f_ball t) eqn:Eb; [discriminate|].
    destruct (draws_good xs_good xs_next xs_next_ok (3 * fuel) g1 G1) as (es2 & g2 & E2 & _ & _). pose proof (draws_app xs_next 3 (3 * fuel) g _ _ _ _ X1 E2) as E3.
    replace (3 + 3 * fuel)%nat with (3 * S fuel)%nat in E3 by lia. rewrite Ed in E3. injection E3 as -> ->. destruct t as [[a b] c]. destruct D1 as (_ & F).
    inversion F as [|e1 ? r1 ? N1 F1]; subst. inversion F1 as [|e2 ? r2 ? N2 F2]; subst. inversion F2 as [|e3 ? r3 ? N3 F3]; subst. inversion F3; subst. cbn [app in_threes] in Ht.
    destruct Ht as [Et|Ht]; [|exact (IH g1 es2 g2 G1 E2 E x y z Ht)]. injection Et as -> -> ->. exists a, b, c. repeat split; try assumption. now apply B2.
Qed.

Lemma f_pick_mono fuel : forall fuel' g r, (fuel <= fuel')%nat -> xs_good g -> f_pick M fuel g = Some r -> f_pick M fuel' g = Some r.
Proof.
  induction fuel as [|fuel IH]; intros fuel' g r Hf Hg E; [discriminate|]. destruct fuel' as [|fuel']; [lia|].
  destruct (f_attempt_ok g Hg) as (t & g1 & es & Ea & G1 & _). rewrite (f_pick_S _ _ _ _ Ea) in E. rewrite (f_pick_S _ _ _ _ Ea). destruct (f_ball t); [exact E|]. apply IH; auto. lia.
Qed.

Lemma draws_cut n l1 : forall g l2 g', draws xs_next (length l1 + n) g = Some (l1 ++ l2, g') -> length l2 = n -> exists q, draws xs_next (length l1) g = Some (l1, q).
Proof.
  induction l1 as [|x l1 IH]; intros g l2 g' E L; [exists g; reflexivity|]. cbn [length Nat.add draws app] in *.
  destruct (xs_next g) as [[v s]|]; [|discriminate]. destruct (draws xs_next (length l1 + n) s) as [[r s']|] eqn:E'; [|discriminate]. injection E as -> -> ->.
  destruct (IH s l2 g' E' L) as (q & Eq). rewrite Eq. eauto.
Qed.

Lemma f_pick_ends g : xs_good g -> exists fuel v g', f_pick M fuel g = Some (v, g').
Proof.
  intros Hg. destruct (stretch g Hg) as (m & ws & g1 & Ed & Lw). pose proof five_near as F.
  assert (Split : exists k p x y z q, draws xs_next (3 * k) g = Some (p ++ [x; y; z], q) /\ (exists i, length p = (3 * i)%nat) /\ (-1/4 < 2 * x - 1 < 1/4) /\ (-1/4 < 2 * y - 1 < 1/4) /\ (-1/4 < 2 * z - 1 < 1/4)).
  { unfold five in F, Ed. inversion F as [|a ? Ha F1]; subst. inversion F1 as [|b ? Hb F2]; subst. inversion F2 as [|c ? Hc F3]; subst. inversion F3 as [|d ? Hd F4]; subst. inversion F4 as [|e ? He _]; subst.
    set (a := wvalue 2198862416) in *. set (b := wvalue 2137211451) in *. set (c := wvalue 2130723093) in *. set (d := wvalue 2260013650) in *. set (e := wvalue 2056562094) in *. clearbody a b c d e. remember (length ws) as m eqn:Em.
    assert (Hm : exists k, m = (3 * k)%nat \/ m = (3 * k + 1)%nat \/ m = (3 * k + 2)%nat).
    { exists (m / 3)%nat. pose proof (Nat.div_mod m 3 ltac:(lia)). pose proof (Nat.mod_upper_bound m 3 ltac:(lia)). lia. }
    destruct Hm as (k & [Hm|[Hm|Hm]]).
    - destruct (draws_cut 2%nat (ws ++ [a; b; c]) g [d; e] g1) as (q & Eq).
      + rewrite app_length, <- Em. cbn [length]. rewrite <- app_assoc. cbn [app]. replace (m + 3 + 2)%nat with (m + 5)%nat by lia. exact Ed.
      + reflexivity.
      + rewrite app_length, <- Em in Eq. cbn [length] in Eq. exists (k + 1)%nat, ws, a, b, c, q. replace (3 * (k + 1))%nat with (m + 3)%nat by lia.
        split; [exact Eq|]. split; [exists k; lia|]. auto.
    - destruct (draws_cut 0%nat (ws ++ [a; b; c; d; e]) g [] g1) as (q & Eq).
      + rewrite app_length, <- Em, app_nil_r. cbn [length]. replace (m + 5 + 0)%nat with (m + 5)%nat by lia. exact Ed.
      + reflexivity.
      + rewrite app_length, <- Em in Eq. cbn [length] in Eq. exists (k + 2)%nat, (ws ++ [a; b]), c, d, e, q. replace (3 * (k + 2))%nat with (m + 5)%nat by lia.
        split; [rewrite <- app_assoc; exact Eq|]. split; [exists (k + 1)%nat; rewrite app_length; cbn [length]; lia|]. auto.
    - destruct (draws_cut 1%nat (ws ++ [a; b; c; d]) g [e] g1) as (q & Eq).
      + rewrite app_length, <- Em. cbn [length]. rewrite <- app_assoc. cbn [app]. replace (m + 4 + 1)%nat with (m + 5)%nat by lia. exact Ed.
      + reflexivity.
      + rewrite app_length, <- Em in Eq. cbn [length] in Eq. exists (k + 2)%nat, (ws ++ [a]), b, c, d, q. replace (3 * (k + 2))%nat with (m + 4)%nat by lia.
        split; [rewrite <- app_assoc; exact Eq|]. split; [exists (k + 1)%nat; rewrite app_length; cbn [length]; lia|]. auto. }
  destruct Split as (k & p & x & y & z & q & Ek & (i & Hi) & Hx & Hy & Hz).
  destruct (f_pick M k g) as [[v g']|] eqn:Ep; [eauto|]. exfalso.
  destruct (f_pick_none k g _ _ Hg Ek Ep x y z) as (x' & y' & z' & N1 & N2 & N3 & B).
  { rewrite (in_threes_app i) by exact Hi. apply in_or_app. right. now left. }
  unfold near_draw in *. apply Rabs_le_inv in N1. apply Rabs_le_inv in N2. apply Rabs_le_inv in N3. cbn [squared] in B.
  assert (S1 : forall s, -1/3 < s < 1/3 -> s * s <= 1/9). { intros s Hs. nra. }
  pose proof (S1 x' ltac:(lra)). pose proof (S1 y' ltac:(lra)). pose proof (S1 z' ltac:(lra)). lra.
Qed.

Lemma taken_app l1 k1 : taken l1 k1 -> forall l2 k2, taken l2 k2 -> taken (l1 ++ l2) (k1 ++ k2).
Proof. induction 1 as [|t l k Hb H IH|t l k Hb H IH]; intros l2 k2 H2; cbn [app]; [exact H2|apply t_in; auto|apply t_out; auto]. Qed.

Lemma f_pick_all_some fuel n : forall g vs g', xs_good g -> f_pick_all M fuel n g = Some (vs, g') ->
  length vs = n /\ exists k es ds ts, runs (3 * k) g es ds g' /\ taken (in_threes ds) ts /\ Forall2 points_near ts vs.
Proof.
  induction n as [|n IH]; intros g vs g' Hg E; cbn [f_pick_all] in E.
  - injection E as <- <-. split; [reflexivity|]. exists O, [], [], []. split; [split; [reflexivity|]; split; [reflexivity|]; split; [reflexivity|]; split; [constructor|exact Hg]|]. split; constructor.
  - destruct (f_pick M fuel g) as [[v g1]|] eqn:Ep; [|discriminate]. destruct (f_pick_all M fuel n g1) as [[ws g2]|] eqn:Ea; [|discriminate]. injection E as <- <-.
    destruct (f_pick_some _ _ _ _ Hg Ep) as (k1 & es1 & ds1 & t & R1 & K1 & P1). destruct (IH _ _ _ (proj2 (proj2 (proj2 (proj2 R1)))) Ea) as (L & k2 & es2 & ds2 & ts & R2 & K2 & P2).
    split; [cbn; lia|]. exists (k1 + k2)%nat, (es1 ++ es2), (ds1 ++ ds2), (t :: ts). replace (3 * (k1 + k2))%nat with (3 * k1 + 3 * k2)%nat by lia.
    split; [exact (runs_app _ _ _ _ _ _ _ _ _ R1 R2)|]. split; [|now constructor]. rewrite (in_threes_app k1) by apply R1. apply (taken_app _ [t]); assumption.
Qed.

Lemma f_pick_all_mono fuel fuel' n : (fuel <= fuel')%nat -> forall g r, xs_good g -> f_pick_all M fuel n g = Some r -> f_pick_all M fuel' n g = Some r.
Proof.
  intros Hf. induction n as [|n IH]; intros g r Hg E; cbn [f_pick_all] in *; [exact E|].
  destruct (f_pick M fuel g) as [[v g1]|] eqn:Ep; [|discriminate]. rewrite (f_pick_mono _ _ _ _ Hf Hg Ep). destruct (f_pick_some _ _ _ _ Hg Ep) as (? & ? & ? & ? & R1 & _).
  destruct (f_pick_all M fuel n g1) as [[ws g2]|] eqn:Ea; [|discriminate]. rewrite (IH _ _ (proj2 (proj2 (proj2 (proj2 R1)))) Ea). exact E.
Qed.

Lemma f_pick_all_ends n : forall g, xs_good g -> exists fuel r, f_pick_all M fuel n g = Some r.
Proof.
  induction n as [|n IH]; intros g Hg; [exists O; eexists; reflexivity|]. destruct (f_pick_ends g Hg) as (f1 & v & g1 & E1).
  destruct (f_pick_some _ _ _ _ Hg E1) as (? & ? & ? & ? & R1 & _). pose proof (proj2 (proj2 (proj2 (proj2 R1)))) as G1. destruct (IH g1 G1) as (f2 & [ws g2] & E2).
  exists (Nat.max f1 f2). cbn [f_pick_all]. rewrite (f_pick_mono f1 _ g _ (Nat.le_max_l f1 f2) Hg E1).
  rewrite (f_pick_all_mono f2 _ n (Nat.le_max_r f1 f2) g1 _ G1 E2). eauto.
Qed.
End Acc.

(** ** C212 *)

(** Any number n of rings but three, every seed: with rounding the loops still end, and give n vectors. The numbers drawn are those of exact arithmetic up to 2^-48;
    the vectors are those of the first n points of the stream in the unit ball; each has length 1 and the direction of its point in float32 precision. *)
Theorem C212_directions : forall M seed n, accurate M -> r64 M 1 = 1 -> n <> 3%nat ->
  exists fuel vs k es ds ts g', (forall more, (fuel <= more)%nat -> f_normVecs M more seed n = Some vs) /\ length vs = n /\
    draws xs_next (3 * k) (xs_init seed) = Some (es, g') /\ draws (f_uniform M (-1) 1) (3 * k) (xs_init seed) = Some (ds, g') /\ Forall2 near_draw es ds /\
    taken (in_threes ds) ts /\ Forall2 points_near ts vs.
Proof.
  intros M seed n HM H1 Hn. pose proof (xs_init_ok seed) as Hg. destruct (f_pick_all_ends M HM H1 n (xs_init seed) Hg) as (fuel & [vs g'] & E).
  destruct (f_pick_all_some M HM H1 _ _ _ _ _ Hg E) as (L & k & es & ds & ts & (X1 & X2 & X3 & X4 & X5) & K & P).
  exists fuel, vs, k, es, ds, ts, g'. split; [|split; [exact L|]; split; [exact X1|]; split; [exact X2|]; split; [exact X4|]; split; [exact K|exact P]].
  intros more Hm. unfold f_normVecs. rewrite (f_pick_all_mono M HM H1 fuel more n Hm _ _ Hg E). do 4 (destruct n as [|n]; [reflexivity || congruence|]). reflexivity.
Qed.
Print Assumptions C212_directions.

(** Three rings: the coordinate axes. *)
Theorem C212_axes : forall M fuel seed, f_normVecs M fuel seed 3 = Some [(0, 0, 1); (0, 1, 0); (1, 0, 0)].
Proof. reflexivity. Qed.
Print Assumptions C212_axes.

Example C212_nonvacuous : accurate ieee /\ r64 ieee 1 = 1 /\ 20%nat <> 3%nat /\ taken [(1 / 2, 0, 1 / 2); (1, 1, 0)] [(1 / 2, 0, 1 / 2)] /\ points_near (0, 1 / 2, 0) (0, 1, 0) /\
  exists fuel vs, f_normVecs ieee fuel 1337 20 = Some vs /\ length vs = 20%nat.
Proof.
  split; [exact ieee_accurate|]. split; [exact ieee_one|]. split; [lia|]. split; [|split].
  - apply t_in; [unfold squared; lra|]. apply t_out; [unfold squared; lra|constructor].
  - split; [cbn [squared]; replace (0 * 0 + 1 * 1 + 0 * 0 - 1) with 0 by ring; rewrite Rabs_R0; lra|]. exists (1 / 2). split; [lra|]. split; [cbn [squared]; lra|].
    assert (Z0 : 1 / 2 * 0 - 0 = 0) by ring. assert (Z1 : 1 / 2 * 1 - 1 / 2 = 0) by ring. rewrite Z0, Z1, Rabs_R0. split; [lra|]. split; [|lra]. apply Rmult_le_pos; [lra|apply Rabs_pos].
  - destruct (C212_directions ieee 1337 20 ieee_accurate ieee_one ltac:(lia)) as (fuel & vs & k & es & ds & ts & g' & H & L & _). exists fuel, vs. split; [now apply H|exact L].
Qed.
