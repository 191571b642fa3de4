(** * Proofs about shells. *)
From Coq Require Import Lia Arith Lra Permutation.
From Verif Require Import ShellModel LoopFacts.
Import List ListNotations.
Local Open Scope R_scope.

(** ** findOrder *)
Lemma find_order_loop_spec n : forall fuel i, (1 <= i)%nat -> (n < fuel + i)%nat ->
  (forall p, (1 <= p < i)%nat -> (2 * p * p <> n)%nat) ->
  match find_order_loop fuel i n with
  | Ok p => (1 <= p)%nat /\ (n = 2 * p * p)%nat
  | Err => False
  | Panic => forall p, (1 <= p)%nat -> (n <> 2 * p * p)%nat
  end.
Proof.
  induction fuel as [|fuel IH]; intros i Hi Hf Hp; cbn [find_order_loop].
  - intros p Hp1 E. destruct (Nat.lt_ge_cases p i) as [H|H]; [apply (Hp p); lia|]. nia.
  - destruct (Nat.eqb_spec (2 * i * i) n) as [E|E]; [lia|].
    destruct (Nat.ltb_spec n (2 * i * i)) as [H|H].
    + intros p Hp1 E'. destruct (Nat.lt_ge_cases p i) as [Hl|Hl]; [apply (Hp p); lia|]. nia.
    + apply IH; [lia|lia|]. intros p Hp1. destruct (Nat.eq_dec p i) as [->|]; [exact E|]. apply Hp. lia.
Qed.

(** ** Sums *)
Fixpoint bsum (n : nat) (f : nat -> R) : R := match n with O => 0 | S k => bsum k f + f k end.

(** ** PennaFunc *)
(** The value of the m-th basis function, i = m mod I, j = (m / I) mod J, k = m / (I * J). *)
Definition pbasis (I J m : nat) (st ct sp cp : R) : R :=
  let i := (m mod I)%nat in let j := ((m / I) mod J)%nat in let k := (m / I / J)%nat in
  st ^ (i + j) * cp ^ i * ct ^ k * sp ^ j.

Lemma pbasis_at I J i j k st ct sp cp : (i < I)%nat -> (j < J)%nat ->
  pbasis I J ((k * J + j) * I + i) st ct sp cp = st ^ (i + j) * cp ^ i * ct ^ k * sp ^ j.
Proof.
  intros Hi Hj. unfold pbasis.
  replace ((k * J + j) * I + i)%nat with (i + (k * J + j) * I)%nat by lia.
  rewrite Nat.mod_add by lia. rewrite (Nat.mod_small i I) by easy.
  rewrite Nat.div_add by lia. rewrite (Nat.div_small i I) by easy. cbn [Nat.add].
  replace (k * J + j)%nat with (j + k * J)%nat by lia.
  rewrite Nat.mod_add by lia. rewrite (Nat.mod_small j J) by easy.
  rewrite Nat.div_add by lia. rewrite (Nat.div_small j J) by easy. reflexivity.
Qed.

Lemma penna_func_sum cs I J K phi th : (I * J * K <= length cs)%nat ->
  penna_func cs I J K phi th =
    Some (bsum (I * J * K) (fun m => nth m cs 0 * pbasis I J m (sin th) (cos th) (sin phi) (cos phi))).
Proof.
  intros Hlen. unfold penna_func.
  set (f := fun m => nth m cs 0 * pbasis I J m (sin th) (cos th) (sin phi) (cos phi)).
  match goal with |- match loop K ?b ?s with _ => _ end = _ => set (body := b); set (s0 := s) end.
  destruct (loop_inv (fun k st => st = ((k * J * I)%nat, bsum (k * J * I) f)) K body s0) as (st & E & Hst).
  - reflexivity.
  - intros k t Hk ->. unfold body. cbv beta zeta.
    match goal with |- exists t', loop J ?b ?s = _ /\ _ => set (body2 := b); set (s1 := s) end.
    destruct (loop_inv (fun j st => st = (((k * J + j) * I)%nat, bsum ((k * J + j) * I) f)) J body2 s1) as (st & E & Hst).
    + unfold s1. now rewrite Nat.add_0_r.
    + intros j t Hj ->. unfold body2. cbv beta zeta.
      match goal with |- exists t', loop I ?b ?s = _ /\ _ => set (body3 := b); set (s2 := s) end.
      destruct (loop_inv (fun i st => st = (((k * J + j) * I + i)%nat, bsum ((k * J + j) * I + i) f)) I body3 s2) as (st & E & Hst).
      * unfold s2. now rewrite Nat.add_0_r.
      * intros i t Hi ->. unfold body3. cbv beta zeta.
        assert (Hb : ((k * J + j) * I + i < length cs)%nat).
        { assert ((k * J + j) * I + i < K * J * I)%nat; [|nia].
          apply idx_lt; [apply idx_lt|]; easy. }
        rewrite (rd_nth _ _ 0) by exact Hb. eexists. split; [reflexivity|].
        f_equal; [lia|]. rewrite Nat.add_succ_r. cbn [bsum].
        assert (Ef : f ((k * J + j) * I + i)%nat = nth ((k * J + j) * I + i) cs 0 * (sin th ^ (i + j) * cos phi ^ i * cos th ^ k * sin phi ^ j))
          by (unfold f; now rewrite pbasis_at). rewrite Ef. ring.
      * exists st. split; [exact E|]. rewrite Hst. replace ((k * J + S j) * I)%nat with ((k * J + j) * I + I)%nat by nia. reflexivity.
    + exists st. split; [exact E|]. rewrite Hst. replace (S k * J * I)%nat with ((k * J + J) * I)%nat by nia. reflexivity.
  - rewrite E, Hst. cbn [snd]. do 2 f_equal. lia.
Qed.

(** ** The matrix *)
Lemma penna_matrix_spec ps I J K :
  exists M, penna_matrix ps I J K = Some M /\ length M = (I * J * K * length ps)%nat /\
    forall m n, (m < I * J * K)%nat -> (n < length ps)%nat ->
      let t := penna_trig (nth n ps (0, 0, 0)) in
      nth (m * length ps + n) M 0 = pbasis I J m (t_sinth t) (t_costh t) (t_sinphi t) (t_cosphi t).
Proof.
  unfold penna_matrix. set (N := length ps). set (ts := map penna_trig ps).
  set (val := fun n m => let t := penna_trig (nth n ps (0, 0, 0)) in
                pbasis I J m (t_sinth t) (t_costh t) (t_sinphi t) (t_cosphi t)).
  match goal with |- context [loop N ?b ?s] => set (body := b); set (s0 := s) end.
  destruct (loop_inv (fun n M => length M = (I * J * K * N)%nat /\
      forall m n', (m < I * J * K)%nat -> (n' < n)%nat -> (n' < N)%nat -> nth (m * N + n') M 0 = val n' m) N body s0)
    as (M & E & HL & HM).
  - split; [apply repeat_length|]. intros; lia.
  - intros n M Hn [HL HM]. unfold body. cbv beta.
    assert (Ht : rd ts n = Some (penna_trig (nth n ps (0, 0, 0)))).
    { rewrite (rd_nth _ _ (penna_trig (0, 0, 0))) by (unfold ts; rewrite map_length; exact Hn).
      unfold ts. now rewrite map_nth. }
    rewrite Ht. set (t := penna_trig (nth n ps (0, 0, 0))).
    (* invariant: the first c cells of column n are written *)
    set (P := fun c M' => length M' = (I * J * K * N)%nat /\
      (forall m n', (n' < n)%nat -> (m < I * J * K)%nat -> nth (m * N + n') M' 0 = val n' m) /\
      (forall m, (m < c)%nat -> (m < I * J * K)%nat -> nth (m * N + n) M' 0 = val n m)).
    match goal with |- context [loop K ?b ?s] => set (body1 := b); set (s1 := s) end.
    destruct (loop_inv (fun k (st : nat * list R) => fst st = (k * J * I)%nat /\ P (k * J * I)%nat (snd st)) K body1 s1)
      as (st & E1 & _ & HP1).
    + split; [reflexivity|]. split; [exact HL|]. split; [|cbn; intros; lia]. intros m n' H1 H2. apply HM; lia.
    + intros k [m1 M1] Hk [Hm1 HP1]. cbn [fst snd] in *. unfold body1. cbv beta zeta.
      match goal with |- context [loop J ?b ?s] => set (body2 := b); set (s2 := s) end.
      destruct (loop_inv (fun j (st : nat * list R) => fst st = ((k * J + j) * I)%nat /\ P ((k * J + j) * I)%nat (snd st)) J body2 s2)
        as ([m2 M2] & E2 & Hm2 & HP2).
      * unfold s2. cbn [fst snd]. now rewrite Nat.add_0_r.
      * intros j [m2 M2] Hj [Hm2 HP2]. cbn [fst snd] in *. unfold body2. cbv beta zeta.
        match goal with |- context [loop I ?b ?s] => set (body3 := b); set (s3 := s) end.
        destruct (loop_inv (fun i (st : nat * R * list R) => fst (fst st) = ((k * J + j) * I + i)%nat /\
            snd (fst st) = t_cosphi t ^ i /\ P ((k * J + j) * I + i)%nat (snd st)) I body3 s3)
          as ([[m3 c3] M3] & E3 & Hm3 & _ & HP3).
        { unfold s3. cbn [fst snd]. rewrite Nat.add_0_r. split; [easy|]. split; [reflexivity|easy]. }
        { intros i [[m3 c3] M3] Hi (Hm3 & Hc3 & HP3). cbn [fst snd] in *. subst m3 c3. unfold body3. cbv beta zeta.
          assert (Hb : ((k * J + j) * I + i < I * J * K)%nat).
          { assert ((k * J + j) * I + i < K * J * I)%nat; [|nia]. apply idx_lt; [apply idx_lt|]; easy. }
          destruct HP3 as (HL3 & Hold & Hnew).
          destruct (wr_some M3 (((k * J + j) * I + i) * N + n)
             (t_sinth t ^ (i + j) * t_cosphi t ^ i * t_costh t ^ k * t_sinphi t ^ j) 0) as (M4 & E4 & HL4 & HM4).
          { rewrite HL3. apply idx_lt; easy. }
          rewrite E4. eexists. split; [reflexivity|]. cbn [fst snd]. split; [lia|]. split; [cbn [pow]; ring|].
          split; [congruence|]. split.
          - intros m n' H1 H2. rewrite HM4.
            destruct (Nat.eqb_spec (m * N + n') (((k * J + j) * I + i) * N + n)) as [Eq|_]; [|now apply Hold].
            apply idx_inj in Eq; lia.
          - intros m H1 H2. rewrite HM4.
            destruct (Nat.eqb_spec (m * N + n) (((k * J + j) * I + i) * N + n)) as [Eq|Ne].
            + apply idx_inj in Eq; [|easy|easy]. destruct Eq as [-> _]. unfold val. cbv zeta. fold t.
              now rewrite pbasis_at.
            + apply Hnew; [|easy]. assert (m <> (k * J + j) * I + i)%nat by (intros ->; now apply Ne). lia. }
        rewrite E3. eexists. split; [reflexivity|]. cbn [fst snd] in *.
        replace ((k * J + S j) * I)%nat with ((k * J + j) * I + I)%nat by nia. now split.
      * exists (m2, M2). split; [exact E2|]. cbn [fst snd] in *.
        replace (S k * J * I)%nat with ((k * J + J) * I)%nat by nia. now split.
    + rewrite E1. eexists. split; [reflexivity|]. destruct HP1 as (HL1 & Hold & Hnew). split; [exact HL1|].
      intros m n' H1 H2 H3. destruct (Nat.eq_dec n' n) as [->|]; [apply Hnew; nia|apply Hold; [lia|easy]].
  - exists M. split; [exact E|]. split; [exact HL|]. intros m n H1 H2. apply HM; easy.
Qed.

(** The trigonometry of penna.go:26-30 recovers the angles of a point off the z axis. *)
Lemma penna_trig_cartesian phi th r : 0 < r -> 0 < th < PI ->
  penna_trig (cartesian phi th r) =
    {| t_r := r; t_costh := cos th; t_sinth := sin th; t_cosphi := cos phi; t_sinphi := sin phi |}.
Proof.
  intros Hr [Ht1 Ht2]. unfold cartesian, penna_trig.
  pose proof (sin_gt_0 th Ht1 Ht2) as Hs.
  pose proof (sin2_cos2 th) as H1. pose proof (sin2_cos2 phi) as H2. unfold Rsqr in *.
  assert (Er : sqrt (r * sin th * cos phi * (r * sin th * cos phi) + r * sin th * sin phi * (r * sin th * sin phi) +
      r * cos th * (r * cos th)) = r).
  { transitivity (sqrt (r * r)); [f_equal|apply sqrt_square; lra].
    transitivity (r * r * (sin th * sin th * (sin phi * sin phi + cos phi * cos phi) + cos th * cos th)); [ring|].
    rewrite H2, Rmult_1_r, H1. ring. }
  rewrite Er. assert (Ec : r * cos th / r = cos th) by (field; lra). rewrite Ec.
  assert (Es : sqrt (1 - cos th * cos th) = sin th).
  { transitivity (sqrt (sin th * sin th)); [f_equal; lra|apply sqrt_square; lra]. }
  rewrite Es. f_equal; field; lra.
Qed.

(** ** atan2 and acos *)
Lemma Rltb_spec a b : reflect (a < b) (Rltb a b).
Proof. unfold Rltb. destruct (Rlt_dec a b); now constructor. Qed.
Lemma Rleb_spec a b : reflect (a <= b) (Rleb a b).
Proof. unfold Rleb. destruct (Rle_dec a b); now constructor. Qed.

Lemma sqrt_1_plus y x : x <> 0 -> sqrt (1 + (y / x) * (y / x)) = sqrt (x * x + y * y) / Rabs x.
Proof.
  intros Hx. assert (0 < Rabs x) by now apply Rabs_pos_lt.
  transitivity (sqrt ((x * x + y * y) / (Rabs x * Rabs x))).
  - f_equal. rewrite <- Rabs_mult, (Rabs_pos_eq (x * x)) by nra. field. exact Hx.
  - rewrite sqrt_div_alt by nra. now rewrite sqrt_square by lra.
Qed.

Lemma atan2_cos_sin y x : 0 < x * x + y * y ->
  cos (atan2 y x) = x / sqrt (x * x + y * y) /\ sin (atan2 y x) = y / sqrt (x * x + y * y).
Proof.
  intros Hp. pose proof (sqrt_lt_R0 _ Hp) as Hs. unfold atan2.
  assert (Hgen : x <> 0 -> cos (atan (y / x)) = Rabs x / sqrt (x * x + y * y) /\
     sin (atan (y / x)) = (y / x) * (Rabs x / sqrt (x * x + y * y))).
  { intros Hx. rewrite cos_atan, sin_atan. unfold Rsqr. rewrite sqrt_1_plus by easy.
    assert (0 < Rabs x) by now apply Rabs_pos_lt. split; field; lra. }
  destruct (Rltb_spec 0 x) as [H1|H1].
  - destruct (Hgen ltac:(lra)) as [-> ->]. rewrite Rabs_pos_eq by lra. split; [easy|field; lra].
  - destruct (Rltb_spec x 0) as [H2|H2].
    + destruct (Hgen ltac:(lra)) as [E1 E2]. rewrite (Rabs_left x) in E1, E2 by lra.
      assert (Ec : forall a, cos (a - PI) = - cos a).
      { intros a. replace (a - PI) with (- (PI - a)) by ring. now rewrite cos_neg, cos_minus, cos_PI, sin_PI; ring. }
      assert (Es : forall a, sin (a - PI) = - sin a).
      { intros a. rewrite sin_minus, cos_PI, sin_PI. ring. }
      destruct (Rleb_spec 0 y); [rewrite neg_cos, neg_sin|rewrite Ec, Es]; rewrite E1, E2; (split; field; lra).
    + assert (x = 0) by lra. subst x. assert (Hy : y <> 0) by (intros ->; lra).
      replace (0 * 0 + y * y) with (y * y) by ring.
      destruct (Rltb_spec 0 y) as [Hy0|Hy0].
      * rewrite cos_PI2, sin_PI2, sqrt_square by lra. split; field; lra.
      * destruct (Rltb_spec y 0) as [Hy1|Hy1]; [|lra].
        replace (- PI / 2) with (- (PI / 2)) by field. rewrite cos_neg, sin_neg, cos_PI2, sin_PI2.
        replace (y * y) with ((- y) * (- y)) by ring. rewrite sqrt_square by lra. split; field; lra.
Qed.
