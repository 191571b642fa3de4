(** * More proofs about shells: containment, Monte Carlo statistics, angular fractions. *)
From Coq Require Import Lia Arith Lra Permutation.
From Verif Require Import ShellModel LoopFacts ShellProofs.
Import List ListNotations.
Local Open Scope R_scope.

(** ** Containment *)
Lemma contains_angles phi th r : 0 < r -> 0 <= th <= PI ->
  let '(x, y, z) := cartesian phi th r in
  sqrt (x * x + y * y + z * z) = r /\
  cartesian (atan2 y x) (acos (z / r)) 1 = cartesian phi th 1.
Proof.
  intros Hr [Ht1 Ht2]. unfold cartesian.
  pose proof (sin2_cos2 th) as H1. pose proof (sin2_cos2 phi) as H2. unfold Rsqr in *.
  pose proof (sin_ge_0 th Ht1 Ht2) as Hs.
  split.
  - transitivity (sqrt (r * r)); [f_equal|apply sqrt_square; lra].
    transitivity (r * r * (sin th * sin th * (sin phi * sin phi + cos phi * cos phi) + cos th * cos th)); [ring|].
    rewrite H2, Rmult_1_r, H1. ring.
  - replace (r * cos th / r) with (cos th) by (field; lra). rewrite acos_cos by lra.
    destruct (Rle_lt_or_eq_dec 0 (sin th) Hs) as [Hlt|Heq].
    + set (x := r * sin th * cos phi). set (y := r * sin th * sin phi).
      assert (Hxy : x * x + y * y = (r * sin th) * (r * sin th)).
      { unfold x, y. transitivity (r * sin th * (r * sin th) * (sin phi * sin phi + cos phi * cos phi)); [ring|]. rewrite H2. ring. }
      assert (Hpos : 0 < r * sin th) by (apply Rmult_lt_0_compat; lra).
      destruct (atan2_cos_sin y x) as [E1 E2]; [rewrite Hxy; apply Rmult_lt_0_compat; lra|].
      rewrite Hxy, sqrt_square in E1, E2 by lra. rewrite E1, E2. unfold x, y.
      assert (Hc : r * sin th * cos phi / (r * sin th) = cos phi) by (field; lra).
      assert (Hsn : r * sin th * sin phi / (r * sin th) = sin phi) by (field; lra).
      now rewrite Hc, Hsn.
    + rewrite <- Heq. now rewrite !Rmult_0_r, !Rmult_0_l.
Qed.

Definition direction_only (s : Shell) : Prop :=
  forall phi th phi' th', cartesian phi th 1 = cartesian phi' th' 1 -> s phi th = s phi' th'.

Lemma contains_direction s phi th r : direction_only s -> 0 < r -> 0 <= th <= PI ->
  let '(x, y, z) := cartesian phi th r in contains s x y z = Rltb r (s phi th).
Proof.
  intros Hd Hr Ht. pose proof (contains_angles phi th r Hr Ht) as H.
  destruct (cartesian phi th r) as [[x y] z]. destruct H as [E1 E2]. unfold contains. rewrite E1.
  now rewrite (Hd _ _ _ _ E2).
Qed.

Lemma penna_direction cs I J K phi th phi' th' : cartesian phi th 1 = cartesian phi' th' 1 ->
  penna_func cs I J K phi th = penna_func cs I J K phi' th'.
Proof.
  intros E. unfold cartesian in E. inversion E as [[E1 E2 E3]].
  rewrite !Rmult_1_l in *.
  assert (Hp : forall i j (c1 s1 t1 c2 s2 t2 : R), t1 * c1 = t2 * c2 -> t1 * s1 = t2 * s2 ->
     t1 ^ (i + j) * s1 ^ j * c1 ^ i = t2 ^ (i + j) * s2 ^ j * c2 ^ i).
  { intros i j c1 s1 t1 c2 s2 t2 H1 H2. rewrite !pow_add.
    transitivity ((t1 * c1) ^ i * (t1 * s1) ^ j); [rewrite !Rpow_mult_distr; ring|].
    rewrite H1, H2, !Rpow_mult_distr. ring. }
  unfold penna_func. cbv zeta.
  match goal with |- match ?a with _ => _ end = match ?b with _ => _ end => assert (Eab : a = b); [|now rewrite Eab] end.
  apply loop_ext. intros k t _. apply loop_ext. intros j t1 _.
  apply loop_ext. intros i [idx sum] _. destruct (rd cs idx) as [c|]; [|reflexivity].
  do 2 f_equal. pose proof (Hp i j _ _ _ _ _ _ E1 E2) as Hij. rewrite E3.
  f_equal.
  transitivity (c * cos th' ^ k * (sin th ^ (i + j) * sin phi ^ j * cos phi ^ i)); [ring|]. rewrite Hij. ring.
Qed.

Lemma sqrt_lt_sq a b : 0 <= a -> 0 <= b -> (a < b * b <-> sqrt a < b).
Proof.
  intros Ha Hb. pose proof (sqrt_pos a). pose proof (sqrt_sqrt a Ha). split; intros H1; nra.
Qed.

Lemma mass_inside_ok s rLow rHigh x y z : 0 <= rLow -> (forall phi th, rLow <= s phi th <= rHigh) ->
  mass_inside s rLow rHigh x y z = contains s x y z.
Proof.
  intros H0 Hb. unfold mass_inside, contains. set (r2 := x * x + y * y + z * z).
  assert (Hr2 : 0 <= r2) by (unfold r2; nra).
  set (v := s (atan2 y x) (acos (z / sqrt r2))). pose proof (Hb (atan2 y x) (acos (z / sqrt r2))) as Hv. fold v in Hv.
  destruct (Rltb_spec r2 (rLow * rLow)) as [H1|H1]; cbn [orb].
  - apply sqrt_lt_sq in H1; [|lra|lra]. destruct (Rltb_spec (sqrt r2) v); [easy|lra].
  - destruct (Rltb_spec r2 (rHigh * rHigh)) as [H2|H2]; cbn [andb]; [easy|].
    destruct (Rltb_spec (sqrt r2) v) as [H3|H3]; [|easy]. exfalso. apply H2. apply sqrt_lt_sq; lra.
Qed.

Lemma shell_keep_ok s Rad rLow rHigh width x y z : 0 <= Rad -> 0 <= width -> Rad * width <= rLow ->
  (forall phi th, rLow <= s phi th <= rHigh) ->
  let r := sqrt (x * x + y * y + z * z) in
  shell_keep s Rad rLow rHigh width x y z = true <-> Rabs (r - s (atan2 y x) (acos (z / r))) < Rad * width.
Proof.
  intros HR Hw Hd Hb. unfold shell_keep. cbv zeta. set (r2 := x * x + y * y + z * z).
  assert (Hr2 : 0 <= r2) by (unfold r2; nra).
  destruct (Rltb_spec width 0) as [?|_]; [lra|].
  set (delta := Rad * width) in *. assert (0 <= delta) by (unfold delta; nra).
  set (v := s (atan2 y x) (acos (z / sqrt r2))). pose proof (Hb (atan2 y x) (acos (z / sqrt r2))) as Hv. fold v in Hv.
  pose proof (sqrt_pos r2) as Hsp. pose proof (sqrt_sqrt r2 Hr2) as Hss.
  split.
  - destruct (Rltb _ _ && Rltb r2 _); [|discriminate].
    destruct (Rltb_spec (sqrt r2) (v + delta)) as [H1|]; [|discriminate].
    destruct (Rltb_spec (v - delta) (sqrt r2)) as [H2|]; [|discriminate]. intros _. apply Rabs_def1; lra.
  - intros Ha. apply Rabs_def2 in Ha.
    destruct (Rltb_spec ((rLow - delta) * (rLow - delta)) r2) as [_|Hn]; [|exfalso; apply Hn; nra].
    destruct (Rltb_spec r2 ((rHigh + delta) * (rHigh + delta))) as [_|Hn]; [|exfalso; apply Hn; nra].
    cbn [andb]. destruct (Rltb_spec (sqrt r2) (v + delta)) as [_|]; [|lra].
    destruct (Rltb_spec (v - delta) (sqrt r2)) as [_|]; [|lra]. reflexivity.
Qed.

Lemma shell_keep_neg s Rad rLow rHigh width x y z : width < 0 -> 0 <= rHigh ->
  (forall phi th, rLow <= s phi th <= rHigh) ->
  shell_keep s Rad rLow rHigh width x y z = contains s x y z.
Proof.
  intros Hw HH Hb. unfold shell_keep, contains. cbv zeta. set (r2 := x * x + y * y + z * z).
  assert (Hr2 : 0 <= r2) by (unfold r2; nra).
  destruct (Rltb_spec width 0) as [_|?]; [|lra].
  set (v := s (atan2 y x) (acos (z / sqrt r2))). pose proof (Hb (atan2 y x) (acos (z / sqrt r2))) as Hv. fold v in Hv.
  rewrite Rplus_0_r. destruct (Rltb_spec r2 (rHigh * rHigh)) as [H2|H2]; [easy|].
  destruct (Rltb_spec (sqrt r2) v) as [H3|H3]; [|easy]. exfalso. apply H2. apply sqrt_lt_sq; lra.
Qed.

(** ** Monte Carlo *)
Lemma fold_sum_bounds (g : R * R -> R) m M : (forall a, m <= g a <= M) -> forall l v,
  v + INR (length l) * m <= fold_left (fun sum a => sum + g a) l v <= v + INR (length l) * M.
Proof.
  intros Hb. induction l as [|a l IH]; intros v.
  - cbn [length INR fold_left]. lra.
  - cbn [fold_left]. change (length (a :: l)) with (S (length l)). rewrite S_INR.
    pose proof (IH (v + g a)) as H. pose proof (Hb a). nra.
Qed.

Lemma mean_bounds (g : R * R -> R) m M l : l <> [] -> (forall a, m <= g a <= M) ->
  m <= fold_left (fun sum a => sum + g a) l 0 / INR (length l) <= M.
Proof.
  intros Hne Hb. assert (0 < INR (length l)) by (apply lt_0_INR; destruct l; [easy|cbn; lia]).
  pose proof (fold_sum_bounds g m M Hb l 0) as Hs. rewrite !Rplus_0_l in Hs.
  split; [apply Rmult_le_reg_r with (INR (length l)); [lra|]|apply Rmult_le_reg_r with (INR (length l)); [lra|]];
  unfold Rdiv; rewrite Rmult_assoc, Rinv_l by lra; lra.
Qed.

Lemma volume_bounds s m M angles : angles <> [] -> 0 <= m -> (forall phi th, m <= s phi th <= M) ->
  4 / 3 * PI * m ^ 3 <= volume s angles <= 4 / 3 * PI * M ^ 3.
Proof.
  intros Hne Hm Hb. unfold volume. cbv zeta.
  destruct (mean_bounds (fun a => s (fst a) (snd a) * s (fst a) (snd a) * s (fst a) (snd a)) (m ^ 3) (M ^ 3) angles Hne) as [H1 H2].
  { intros a. pose proof (Hb (fst a) (snd a)) as H. set (v := s (fst a) (snd a)) in *. cbn [pow].
    assert (m * m <= v * v <= M * M) by (split; apply Rmult_le_compat; lra).
    split; [replace (m * (m * (m * 1))) with (m * m * m) by ring|replace (M * (M * (M * 1))) with (M * M * M) by ring];
      apply Rmult_le_compat; nra. }
  pose proof PI_RGT_0. set (q := fold_left _ _ _ / _) in *. split; nra.
Qed.

Lemma radial_range_spec s a0 angles :
  let '(low, high) := radial_range s a0 angles in
  (forall a, In a (a0 :: angles) -> low <= s (fst a) (snd a) <= high) /\
  (exists a, In a (a0 :: angles) /\ low = s (fst a) (snd a)) /\
  (exists a, In a (a0 :: angles) /\ high = s (fst a) (snd a)).
Proof.
  unfold radial_range. cbv zeta.
  match goal with |- context [fold_left ?f angles _] => set (step := f) end.
  assert (H : forall l (seen : list (R * R)) lh,
     ((forall a, In a seen -> fst lh <= s (fst a) (snd a) <= snd lh) /\
      (exists a, In a seen /\ fst lh = s (fst a) (snd a)) /\ (exists a, In a seen /\ snd lh = s (fst a) (snd a))) ->
     let lh' := fold_left step l lh in
     (forall a, In a (seen ++ l) -> fst lh' <= s (fst a) (snd a) <= snd lh') /\
      (exists a, In a (seen ++ l) /\ fst lh' = s (fst a) (snd a)) /\ (exists a, In a (seen ++ l) /\ snd lh' = s (fst a) (snd a))).
  { induction l as [|a l IH]; intros seen lh Hinv; cbv zeta; [cbn [fold_left]; now rewrite app_nil_r|].
    cbn [fold_left]. replace (seen ++ a :: l) with ((seen ++ [a]) ++ l) by now rewrite <- app_assoc.
    apply IH. destruct Hinv as (Hall & (al & Hal & El) & (ah & Hah & Eh)). unfold step. cbn [fst snd].
    set (v := s (fst a) (snd a)). pose proof (Hall al Hal) as Hbl. pose proof (Hall ah Hah) as Hbh.
    split; [|split].
    - intros b Hb. apply in_app_or in Hb. destruct Hb as [Hb|[<-|[]]].
      + pose proof (Hall b Hb). destruct (Rltb_spec (snd lh) v), (Rltb_spec v (fst lh)); lra.
      + fold v. destruct (Rltb_spec (snd lh) v), (Rltb_spec v (fst lh)); lra.
    - destruct (Rltb_spec v (fst lh)); [exists a; split; [apply in_or_app; right; now left|easy]|].
      exists al. split; [apply in_or_app; now left|easy].
    - destruct (Rltb_spec (snd lh) v); [exists a; split; [apply in_or_app; right; now left|easy]|].
      exists ah. split; [apply in_or_app; now left|easy]. }
  specialize (H angles [a0] (s (fst a0) (snd a0), s (fst a0) (snd a0))).
  destruct (fold_left step angles (s (fst a0) (snd a0), s (fst a0) (snd a0))) as [low high]. apply H.
  cbn [fst snd]. split; [|split].
  - intros a [<-|[]]. lra.
  - exists a0. split; [now left|easy].
  - exists a0. split; [now left|easy].
Qed.

(** ** Angular fractions *)
Definition count {A} (f : A -> bool) (l : list A) : nat := length (filter f l).

Lemma count_cons {A} (f : A -> bool) a l : count f (a :: l) = ((if f a then 1 else 0) + count f l)%nat.
Proof. unfold count. cbn. now destruct (f a). Qed.
Lemma count_app {A} (f : A -> bool) l l' : count f (l ++ l') = (count f l + count f l')%nat.
Proof. unfold count. now rewrite filter_app, app_length. Qed.

Definition bin_of (lrMin dlr lr : R) : Z := Rtrunc ((lr - lrMin) / dlr).

Lemma hist_spec lrMin dlr bins lrs :
  exists ns, fold_left (fun acc lr => do ns <- acc;
      let lri := Rtrunc ((lr - lrMin) / dlr) in
      if (lri <? 0)%Z || (Z.of_nat bins <=? lri)%Z then Some ns
      else (do v <- rd ns (Z.to_nat lri); wr ns (Z.to_nat lri) (S v))) lrs (Some (repeat O bins)) = Some ns /\
  length ns = bins /\ forall i, (i < bins)%nat -> nth i ns O = count (fun lr => (bin_of lrMin dlr lr =? Z.of_nat i)%Z) lrs.
Proof.
  match goal with |- context [fold_left ?f lrs _] => set (step := f) end.
  assert (H : forall l seen ns, length ns = bins ->
     (forall i, (i < bins)%nat -> nth i ns O = count (fun lr => (bin_of lrMin dlr lr =? Z.of_nat i)%Z) seen) ->
     exists ns', fold_left step l (Some ns) = Some ns' /\ length ns' = bins /\
       forall i, (i < bins)%nat -> nth i ns' O = count (fun lr => (bin_of lrMin dlr lr =? Z.of_nat i)%Z) (seen ++ l)).
  { induction l as [|lr l IH]; intros seen ns HL Hns.
    - exists ns. cbn [fold_left]. rewrite app_nil_r. auto.
    - cbn [fold_left]. replace (seen ++ lr :: l) with ((seen ++ [lr]) ++ l) by now rewrite <- app_assoc.
      unfold step at 2. cbv zeta. fold (bin_of lrMin dlr lr).
      destruct (Z.ltb_spec (bin_of lrMin dlr lr) 0) as [H1|H1]; cbn [orb].
      { apply IH; [easy|]. intros i Hi. rewrite count_app, count_cons, (Hns i Hi).
        destruct (Z.eqb_spec (bin_of lrMin dlr lr) (Z.of_nat i)); [lia|]. cbn. lia. }
      destruct (Z.leb_spec (Z.of_nat bins) (bin_of lrMin dlr lr)) as [H2|H2].
      { apply IH; [easy|]. intros i Hi. rewrite count_app, count_cons, (Hns i Hi).
        destruct (Z.eqb_spec (bin_of lrMin dlr lr) (Z.of_nat i)); [lia|]. cbn. lia. }
      set (b := Z.to_nat (bin_of lrMin dlr lr)). assert (Hb : (b < length ns)%nat) by lia.
      rewrite (rd_nth _ _ O) by exact Hb.
      destruct (wr_some ns b (S (nth b ns O)) O Hb) as (ns' & E & HL' & Hn'). rewrite E.
      apply IH; [lia|]. intros i Hi. rewrite Hn', count_app, count_cons, <- (Hns i Hi).
      change (count (fun lr0 : R => (bin_of lrMin dlr lr0 =? Z.of_nat i)%Z) []) with O.
      destruct (Nat.eqb_spec i b) as [->|Hne].
      + assert (Eb : Z.of_nat b = bin_of lrMin dlr lr) by lia. rewrite Eb, Z.eqb_refl. lia.
      + destruct (Z.eqb_spec (bin_of lrMin dlr lr) (Z.of_nat i)) as [Ei|]; [exfalso; lia|]. lia. }
  apply (H lrs [] (repeat O bins)); [apply repeat_length|].
  intros i Hi. rewrite nth_repeat. reflexivity.
Qed.

Lemma skipn_nth {A} i (l : list A) d : (i < length l)%nat -> skipn i l = nth i l d :: skipn (S i) l.
Proof.
  revert l. induction i as [|i IH]; intros [|a l] H; cbn [length] in H; try lia; [reflexivity|].
  change (skipn (S i) (a :: l)) with (skipn i l). change (skipn (S (S i)) (a :: l)) with (skipn (S i) l). apply IH. lia.
Qed.

Lemma cumsum_spec ns : exists ns', loop_down (length ns - 1) (fun i ns => do a <- rd ns i; do b <- rd ns (i + 1); wr ns i (a + b)%nat) ns = Some ns' /\
  length ns' = length ns /\ forall i, (i < length ns)%nat -> nth i ns' O = list_sum (skipn i ns).
Proof.
  destruct (loop_down_inv (fun i ns' => length ns' = length ns /\
      (forall j, (j < i)%nat -> nth j ns' O = nth j ns O) /\
      (forall j, (i <= j < length ns)%nat -> nth j ns' O = list_sum (skipn j ns)))
    (length ns - 1) (fun i ns => do a <- rd ns i; do b <- rd ns (i + 1); wr ns i (a + b)%nat) ns) as (ns' & E & HL & _ & Hn).
  - split; [easy|]. split; [easy|]. intros j Hj. rewrite (skipn_nth j ns O) by lia.
    rewrite skipn_all2 by lia. cbn. lia.
  - intros i t Hi (HL & H1 & H2).
    rewrite (rd_nth t i O) by lia. rewrite (rd_nth t (i + 1) O) by lia.
    destruct (wr_some t i (nth i t O + nth (i + 1) t O)%nat O) as (t' & E & HL' & Hn); [lia|].
    exists t'. split; [exact E|]. split; [lia|]. split.
    + intros j Hj. rewrite Hn. destruct (Nat.eqb_spec j i); [lia|]. apply H1. lia.
    + intros j Hj. rewrite Hn. destruct (Nat.eqb_spec j i) as [->|]; [|apply H2; lia].
      rewrite H1 by lia. rewrite H2 by lia. replace (i + 1)%nat with (S i) by lia.
      rewrite (skipn_nth i ns O) by lia. reflexivity.
  - exists ns'. split; [exact E|]. split; [exact HL|]. intros i Hi. apply Hn. lia.
Qed.
