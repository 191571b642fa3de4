(** * Proofs about stats mode: shells, masses and ids. *)
From Verif Require Import StatsRunModel StatsSpec CmdProofs LoopFacts ShellProofs ShellProofs2 LosProofs9 InterpProofs.
From Coq Require Import Reals Lra Lia ZArith List Permutation Sorted.
Import List ListNotations.
Local Open Scope R_scope.

(** ** Sums *)
Lemma sum_n_S n f : sum_n (S n) f = sum_n n f + f n.
Proof.
  unfold sum_n. rewrite seq_S, map_app. cbn [map Nat.add]. generalize (map f (seq 0 n)) as l. induction l as [|a l IH]; cbn [app fold_right]; [lra|]. rewrite IH. lra.
Qed.
Lemma bsum_sum_n n f : bsum n f = sum_n n f.
Proof. induction n as [|n IH]; [reflexivity|]. rewrite sum_n_S, <- IH. reflexivity. Qed.
Lemma sum_n_ext n f g : (forall i, (i < n)%nat -> f i = g i) -> sum_n n f = sum_n n g.
Proof. intros H. induction n as [|n IH]; [reflexivity|]. rewrite !sum_n_S, IH, H by (intros; try apply H; lia). reflexivity. Qed.
Lemma sum_n_split a b f : sum_n (a + b) f = sum_n a f + sum_n b (fun i => f (a + i)%nat).
Proof.
  induction b as [|b IH]; [rewrite Nat.add_0_r; unfold sum_n at 3; cbn; lra|]. rewrite Nat.add_succ_r, !sum_n_S, IH. lra.
Qed.
Lemma sum_n_flat a b f : sum_n (a * b) f = sum_n a (fun j => sum_n b (fun i => f (j * b + i)%nat)).
Proof.
  induction a as [|a IH]; [reflexivity|]. rewrite sum_n_S, <- IH. replace (S a * b)%nat with (a * b + b)%nat by lia. apply sum_n_split.
Qed.

(** ** Shells *)
Lemma shell_of_ok cs o : (1 <= o)%nat -> length cs = (2 * o * o)%nat -> exists s, shell_of cs = Some s /\
  forall phi th, s phi th = pd_radius o cs (direction (phi, th)).
Proof.
  intros Ho L. unfold shell_of, find_order. change (List.length cs) with (length cs).
  pose proof (find_order_loop_spec (length cs) (S (length cs)) 1 (le_n _) ltac:(lia) ltac:(intros; lia)) as H.
  destruct (find_order_loop (S (length cs)) 1 (length cs)) as [q| |]; [|contradiction|exfalso; apply (H o); lia].
  destruct H as [Hq1 Hq2]. assert (q = o) by nia. subst q. eexists. split; [reflexivity|]. intros phi th. cbn beta.
  rewrite penna_func_sum by lia. rewrite bsum_sum_n. unfold pd_radius, direction.
  replace (o * o * 2)%nat with (2 * o * o)%nat by lia. rewrite sum_n_flat. rewrite (sum_n_flat 2 o). apply sum_n_ext. intros k Hk. apply sum_n_ext. intros j Hj. apply sum_n_ext. intros i Hi.
  rewrite pbasis_at by assumption. rewrite pow_add, !Rpow_mult_distr. ring.
Qed.

(** Spherical angles of a vector. *)
Lemma polar_exists x y z : let r := sqrt (x * x + y * y + z * z) in 0 < r -> exists phi th, 0 <= th <= PI /\ cartesian phi th r = (x, y, z).
Proof.
  intros r Hr. assert (Hrr : r * r = x * x + y * y + z * z) by (unfold r; apply sqrt_sqrt; nra).
  assert (Hz : -1 <= z / r <= 1).
  { assert (z * z <= r * r) by nra. split; [apply Rmult_le_reg_r with r; [exact Hr|]|apply Rmult_le_reg_r with r; [exact Hr|]]; unfold Rdiv; rewrite Rmult_assoc, Rinv_l by lra; nra. }
  set (th := acos (z / r)). assert (Ht : 0 <= th <= PI) by apply acos_bound.
  assert (Ct : cos th = z / r) by (unfold th; apply cos_acos; lra).
  set (rho := sqrt (x * x + y * y)). assert (Hrho : rho * rho = x * x + y * y) by (unfold rho; apply sqrt_sqrt; nra). assert (Rp : 0 <= rho) by apply sqrt_pos.
  assert (St : r * sin th = rho).
  { assert (0 <= sin th) by (apply sin_ge_0; lra). pose proof (sin2_cos2 th) as Q. unfold Rsqr in Q. rewrite Ct in Q.
    assert (Er : r * (z / r) = z) by (field; lra). assert ((r * sin th) * (r * sin th) = rho * rho) by (transitivity (r * r * (sin th * sin th)); [ring|]; replace (sin th * sin th) with (1 - z / r * (z / r)) by lra; transitivity (r * r - r * (z / r) * (r * (z / r))); [ring|]; rewrite Er; lra). assert (0 <= r * sin th) by nra. nra. }
  destruct (Req_dec rho 0) as [E0|N0].
  - exists 0, th. split; [exact Ht|]. unfold cartesian. rewrite St, E0, Ct. assert (x = 0 /\ y = 0) as [-> ->] by (rewrite E0 in Hrho; split; nra). f_equal; [f_equal; ring|field; lra].
  - assert (Hx : -1 <= x / rho <= 1).
    { assert (0 < rho) by lra. split; [apply Rmult_le_reg_r with rho; [lra|]|apply Rmult_le_reg_r with rho; [lra|]]; unfold Rdiv; rewrite Rmult_assoc, Rinv_l by lra; nra. }
    set (p := acos (x / rho)). assert (Cp : cos p = x / rho) by (unfold p; apply cos_acos; lra). assert (Hp : 0 <= p <= PI) by apply acos_bound.
    assert (Sp : (rho * sin p) * (rho * sin p) = y * y).
    { pose proof (sin2_cos2 p) as Q. unfold Rsqr in Q. rewrite Cp in Q. assert (Er : rho * (x / rho) = x) by (field; lra). transitivity (rho * rho * (sin p * sin p)); [ring|]. replace (sin p * sin p) with (1 - x / rho * (x / rho)) by lra. transitivity (rho * rho - rho * (x / rho) * (rho * (x / rho))); [ring|]. rewrite Er. lra. }
    assert (0 <= rho * sin p) by (apply Rmult_le_pos; [lra|apply sin_ge_0; lra]).
    destruct (Rle_lt_dec 0 y) as [Hy|Hy].
    + exists p, th. split; [exact Ht|]. unfold cartesian. rewrite St, Cp, Ct. f_equal; [f_equal; [field; lra|nra]|field; lra].
    + exists (- p), th. split; [exact Ht|]. unfold cartesian. rewrite St, cos_neg, sin_neg, Cp, Ct. f_equal; [f_equal; [field; lra|nra]|field; lra].
Qed.

Lemma direction_unit a : unit3 (direction a).
Proof.
  destruct a as [phi th]. unfold unit3, direction, dot3. pose proof (sin2_cos2 th) as A. pose proof (sin2_cos2 phi) as B. unfold Rsqr in *.
  transitivity (sin th * sin th * (sin phi * sin phi + cos phi * cos phi) + cos th * cos th); [ring|]. rewrite B. lra.
Qed.

(** The angles that the code computes for a displacement give its direction. *)
Lemma code_angles x y z : let r := sqrt (x * x + y * y + z * z) in 0 < r -> scale3 r (direction (atan2 y x, acos (z / r))) = (x, y, z).
Proof.
  intros r Hr. destruct (polar_exists x y z Hr) as (phi & th & Ht & E). fold r in E. pose proof (contains_angles phi th r Hr Ht) as H. rewrite E in H. destruct H as [_ H].
  unfold direction, scale3. unfold cartesian in *. rewrite !Rmult_1_l in H. injection H as H1 H2 H3. injection E as E1 E2 E3. rewrite H1, H2, H3. f_equal; [f_equal|]; lra.
Qed.
Lemma scale3_norm r n : 0 < r -> unit3 n -> norm3 (scale3 r n) = r.
Proof.
  destruct n as [[x y] z]. unfold unit3, norm3, scale3, dot3. intros Hr U. replace (r * x * (r * x) + r * y * (r * y) + r * z * (r * z)) with (r * r * (x * x + y * y + z * z)) by ring.
  rewrite U, Rmult_1_r. apply sqrt_square. lra.
Qed.
Lemma scale3_inj r n r' n' : 0 < r -> 0 < r' -> unit3 n -> unit3 n' -> scale3 r n = scale3 r' n' -> r = r' /\ n = n'.
Proof.
  intros Hr Hr' U U' E. assert (r = r') by (rewrite <- (scale3_norm r n Hr U), <- (scale3_norm r' n' Hr' U'), E; reflexivity). subst r'. split; [reflexivity|].
  destruct n as [[x y] z], n' as [[x' y'] z']. unfold scale3 in E. injection E as E1 E2 E3. f_equal; [f_equal|]; apply Rmult_eq_reg_l with r; lra.
Qed.

Section Row.
Variables (o : nat) (cs : list R) (s : Shell).
Hypothesis Hs : forall phi th, s phi th = pd_radius o cs (direction (phi, th)).

Lemma contains_iff x y z : 0 < sqrt (x * x + y * y + z * z) -> contains s x y z = true <-> inside_pd o cs (x, y, z).
Proof.
  intros Hr. pose proof (code_angles x y z Hr) as E. set (r := sqrt (x * x + y * y + z * z)) in *. unfold contains. fold r. rewrite Hs.
  destruct (Rltb_spec r (pd_radius o cs (direction (atan2 y x, acos (z / r))))) as [H|H].
  - split; [|reflexivity]. intros _. exists r, (direction (atan2 y x, acos (z / r))). split; [exact Hr|]. split; [apply direction_unit|]. split; [symmetry; exact E|exact H].
  - split; [discriminate|]. intros (r' & n & Hr' & U & E' & H'). rewrite <- E in E'. apply scale3_inj in E'; auto using direction_unit. destruct E' as [<- <-]. lra.
Qed.

Lemma norm_eq x y z : norm3 (x, y, z) = sqrt (x * x + y * y + z * z).
Proof. reflexivity. Qed.

(** The test on a particle. *)
Lemma mass_inside_iff rLow rHigh x y z : 0 < rLow -> 0 <= rHigh ->
  mass_inside s rLow rHigh x y z = true <-> norm3 (x, y, z) < rLow \/ (norm3 (x, y, z) < rHigh /\ inside_pd o cs (x, y, z)).
Proof.
  intros HL HH. unfold mass_inside. rewrite norm_eq. set (r2 := x * x + y * y + z * z). assert (H2 : 0 <= r2) by (unfold r2; nra).
  destruct (Rltb_spec r2 (rLow * rLow)) as [A|A]; cbn [orb].
  - split; [|reflexivity]. intros _. left. apply sqrt_lt_sq; lra.
  - assert (NA : ~ sqrt r2 < rLow) by (rewrite <- sqrt_lt_sq by lra; lra). assert (Pos : 0 < sqrt r2) by lra.
    destruct (Rltb_spec r2 (rHigh * rHigh)) as [B|B]; cbn [andb].
    + rewrite (contains_iff x y z Pos). apply sqrt_lt_sq in B; [|lra|lra]. tauto.
    + assert (NB : ~ sqrt r2 < rHigh) by (rewrite <- sqrt_lt_sq by lra; lra). split; [discriminate|tauto].
Qed.

Lemma keep_inside_iff Rad rLow rHigh width x y z : width < 0 -> 0 <= rHigh -> (x, y, z) <> (0, 0, 0) ->
  shell_keep s Rad rLow rHigh width x y z = true <-> norm3 (x, y, z) < rHigh /\ inside_pd o cs (x, y, z).
Proof.
  intros Hw HH N. unfold shell_keep. destruct (Rltb_spec width 0) as [_|?]; [|lra]. cbv zeta. rewrite norm_eq. set (r2 := x * x + y * y + z * z). assert (H2 : 0 <= r2) by (unfold r2; nra).
  assert (Pos : 0 < sqrt r2). { apply sqrt_lt_R0. unfold r2. destruct (Req_dec x 0) as [->|?]; [|nra]. destruct (Req_dec y 0) as [->|?]; [|nra]. destruct (Req_dec z 0) as [->|?]; [contradiction N; reflexivity|nra]. }
  rewrite Rplus_0_r. destruct (Rltb_spec r2 (rHigh * rHigh)) as [B|B].
  - pose proof (contains_iff x y z Pos) as C. unfold contains in C. fold r2 in C. rewrite C. apply sqrt_lt_sq in B; [|lra|lra]. tauto.
  - assert (NB : ~ sqrt r2 < rHigh) by (rewrite <- sqrt_lt_sq by lra; lra). split; [discriminate|tauto].
Qed.

Lemma keep_near_iff Rad rLow rHigh width x y z : 0 <= width -> 0 <= Rad -> 0 <= rHigh -> Rad * width <= rLow ->
  shell_keep s Rad rLow rHigh width x y z = true <->
  rLow - Rad * width < norm3 (x, y, z) < rHigh + Rad * width /\ near_pd o cs (Rad * width) (x, y, z).
Proof.
  intros Hw HR HH HL. unfold shell_keep. destruct (Rltb_spec width 0) as [?|_]; [lra|]. cbv zeta. rewrite norm_eq. set (r2 := x * x + y * y + z * z). assert (H2 : 0 <= r2) by (unfold r2; nra).
  set (de := Rad * width) in *. assert (Hd : 0 <= de) by (unfold de; nra).
  pose proof (sqrt_sqrt r2 H2) as Sq. pose proof (sqrt_pos r2) as Sp.
  assert (LowI : (rLow - de) * (rLow - de) < r2 <-> rLow - de < sqrt r2) by (split; intros K; nra).
  assert (HighI : r2 < (rHigh + de) * (rHigh + de) <-> sqrt r2 < rHigh + de) by (apply sqrt_lt_sq; lra).
  destruct (Rltb_spec ((rLow - de) * (rLow - de)) r2) as [A|A]; cbn [andb].
  2: { split; [discriminate|]. intros [[K _] _]. apply LowI in K. lra. }
  destruct (Rltb_spec r2 ((rHigh + de) * (rHigh + de))) as [B|B].
  2: { split; [discriminate|]. intros [[_ K] _]. apply HighI in K. lra. }
  apply LowI in A. apply HighI in B. assert (Pos : 0 < sqrt r2) by lra. pose proof (code_angles x y z Pos) as E. fold r2 in E. rewrite Hs.
  set (n := direction (atan2 y x, acos (z / sqrt r2))) in *. assert (U : unit3 n) by apply direction_unit.
  assert (NP : near_pd o cs de (x, y, z) <-> Rabs (sqrt r2 - pd_radius o cs n) < de).
  { split.
    - intros (r' & n' & Hr' & U' & E' & H'). rewrite <- E in E'. apply scale3_inj in E'; auto. destruct E' as [<- <-]. exact H'.
    - intros H'. exists (sqrt r2), n. auto. }
  rewrite NP. destruct (Rltb_spec (sqrt r2) (pd_radius o cs n + de)) as [C|C]; cbn [andb].
  - destruct (Rltb_spec (pd_radius o cs n - de) (sqrt r2)) as [D|D].
    + split; [|reflexivity]. intros _. split; [lra|]. apply Rabs_def1; lra.
    + split; [discriminate|]. intros [_ K]. apply Rabs_def2 in K. lra.
  - split; [discriminate|]. intros [_ K]. apply Rabs_def2 in K. lra.
Qed.
End Row.

(** The sampled range. *)
Lemma radial_range_sampled o cs s a0 angles : (forall phi th, s phi th = pd_radius o cs (direction (phi, th))) ->
  sampled_range o cs (a0 :: angles) (fst (radial_range s a0 angles)) (snd (radial_range s a0 angles)).
Proof.
  intros Hs. unfold radial_range. set (f := fun lh a => _).
  assert (G : forall l seen lo hi, sampled_range o cs seen lo hi -> sampled_range o cs (seen ++ l) (fst (fold_left f l (lo, hi))) (snd (fold_left f l (lo, hi)))).
  { induction l as [|a l IH]; intros seen lo hi H; [rewrite app_nil_r; exact H|]. cbn [fold_left]. replace (seen ++ a :: l) with ((seen ++ [a]) ++ l) by (rewrite <- app_assoc; reflexivity).
    destruct (f (lo, hi) a) as [lo' hi'] eqn:Ef. apply IH. unfold f in Ef. cbn [fst snd] in Ef. rewrite Hs in Ef. destruct a as [phi th]. cbn [fst snd] in Ef.
    set (r := pd_radius o cs (direction (phi, th))) in *. injection Ef as <- <-. destruct H as ((al & Il & El) & (ah & Ih & Eh) & All).
    assert (Q : lo <= hi) by (destruct (All al Il); lra).
    split; [|split].
    - destruct (Rltb_spec r lo); [exists (phi, th)|exists al]; rewrite in_app_iff; cbn; auto.
    - destruct (Rltb_spec hi r); [exists (phi, th)|exists ah]; rewrite in_app_iff; cbn; auto.
    - intros b Hb. rewrite in_app_iff in Hb. destruct (Rltb_spec r lo), (Rltb_spec hi r); destruct Hb as [Hb|[<-|[]]]; try (specialize (All b Hb)); fold r; lra. }
  apply (G angles [a0]). rewrite Hs. destruct a0 as [phi th]. cbn [fst snd]. split; [|split].
  - exists (phi, th). cbn; auto. - exists (phi, th). cbn; auto. - intros b [<-|[]]. lra.
Qed.
