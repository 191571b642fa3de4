(** * Linear, BiLinear and TriLinear satisfy InterpSpec. *)
From Coq Require Import Lra Psatz.
From Verif Require Import GoBase RealBase InterpModel InterpSpec InterpProofs.
Local Open Scope R_scope.
Local Open Scope list_scope.

(** A searcher that serves the abscissae xs. *)
Record grid_ok (s : searcher) (xs : list R) : Prop := {
  go_len : (2 <= List.length xs)%nat;
  go_inc : increasing xs;
  go_n : s_n s = Z.of_nat (List.length xs);
  go_val : forall i a, nth_error xs i = Some a -> s_val s (Z.of_nat i) = Some a;
  go_in : forall x, within xs x -> exists i a b, search s x = Some (Z.of_nat i) /\
            nth_error xs i = Some a /\ nth_error xs (S i) = Some b /\ a <= x <= b;
  go_out : forall x, ~ within xs x -> search s x = None }.

Lemma ends (xs : list R) : (2 <= List.length xs)%nat -> exists a b, nth_error xs 0 = Some a /\ nth_error xs (List.length xs - 1) = Some b.
Proof.
  intros H. destruct (nth_error xs 0) eqn:E1; [|apply nth_error_None in E1; lia].
  destruct (nth_error xs (List.length xs - 1)) eqn:E2; [|apply nth_error_None in E2; lia]. eauto.
Qed.

Lemma grid_init xs : (2 <= List.length xs)%nat -> increasing xs -> exists s, s_init xs = Some s /\ grid_ok s xs.
Proof.
  intros H2 Hinc. destruct (ends xs H2) as (a & b & Ha & Hb).
  destruct (s_init xs) as [s|] eqn:E.
  - exists s. split; [reflexivity|].
    assert (Hs : s_n s = Z.of_nat (List.length xs) /\ s_unif s = false /\ s_xs s = xs).
    { unfold s_init in E. apply bindo_some in E. destruct E as (? & _ & E). apply bindo_some in E. destruct E as (? & _ & E).
      assert (s = s) by reflexivity. inversion E. cbn. auto. }
    destruct Hs as (Hn & Hu & Hx). split; auto.
    + intros i c Hc. unfold s_val. rewrite Hu, Hx, at_nat. exact Hc.
    + intros x (a' & b' & Ha' & Hb' & Hr). destruct (search_spec xs s x a' b' E H2 Hinc Ha' Hb' Hr) as (i & p & q & Hi & Hir & Hp & Hq & Hpq).
      exists (Z.to_nat i), p, q. rewrite Z2Nat.id by lia. split; [exact Hi|]. rewrite at_toNat in Hp, Hq by lia.
      replace (Z.to_nat (i + 1)) with (S (Z.to_nat i)) in Hq by lia. auto.
    + intros x Hx'. apply (search_outside xs s x a b E Ha Hb).
      destruct (Rlt_dec x a); [left; assumption|]. destruct (Rlt_dec b x); [right; assumption|].
      exfalso. apply Hx'. exists a, b. repeat split; auto; lra.
  - exfalso. unfold s_init in E.
    assert (Ha' : at_ xs 0 = Some a) by exact Ha.
    assert (Hb' : at_ xs (Z.of_nat (List.length xs) - 1) = Some b) by (rewrite at_toNat by lia; rewrite <- Hb; f_equal; lia).
    rewrite Ha', Hb' in E. discriminate.
Qed.

Lemma uniform_nth x0 dx n i a : nth_error (uniform_grid x0 dx n) i = Some a <-> (i < n)%nat /\ a = x0 + INR i * dx.
Proof.
  unfold uniform_grid. destruct (Nat.lt_ge_cases i n) as [H|H].
  - rewrite (map_nth_error _ _ (seq 0 n) (d := i)).
    + split; intros; [split; congruence|]. destruct H0; congruence.
    + rewrite (nth_error_nth' _ 0%nat) by (rewrite seq_length; lia). rewrite seq_nth by lia. reflexivity.
  - split; [|lia]. intros E. assert (Hl : nth_error (map (fun i : nat => x0 + INR i * dx) (seq 0 n)) i <> None) by congruence.
    apply nth_error_Some in Hl. rewrite map_length, seq_length in Hl. lia.
Qed.
Lemma uniform_length x0 dx n : List.length (uniform_grid x0 dx n) = n.
Proof. unfold uniform_grid. rewrite map_length, seq_length. reflexivity. Qed.

Lemma uniform_within x0 dx n x : (2 <= n)%nat -> within (uniform_grid x0 dx n) x <-> x0 <= x <= x0 + IZR (Z.of_nat n - 1) * dx.
Proof.
  intros H. replace (IZR (Z.of_nat n - 1)) with (INR (n - 1)) by (rewrite INR_IZR_INZ; f_equal; lia). split.
  - intros (a & b & Ha & Hb & Hr). apply uniform_nth in Ha, Hb. rewrite uniform_length in Hb.
    destruct Ha as [_ ->], Hb as [_ ->]. cbn [INR] in Hr. lra.
  - intros Hr. exists x0, (x0 + INR (n - 1) * dx). rewrite !uniform_nth, uniform_length. cbn [INR]. repeat split; try lia; try lra.
Qed.

Lemma grid_unif x0 dx n : (2 <= n)%nat -> 0 < dx -> grid_ok (s_unifInit x0 dx (Z.of_nat n)) (uniform_grid x0 dx n).
Proof.
  intros H2 Hd. split.
  - rewrite uniform_length. exact H2.
  - intros i j a b Hij Ha Hb. apply uniform_nth in Ha, Hb. destruct Ha as [_ ->], Hb as [_ ->]. apply lt_INR in Hij. nra.
  - rewrite uniform_length. reflexivity.
  - intros i a Ha. apply uniform_nth in Ha. destruct Ha as [_ ->]. unfold s_val, s_unifInit. cbn. rewrite <- INR_IZR_INZ. f_equal. lra.
  - intros x Hx. apply uniform_within in Hx; [|exact H2]. destruct (search_unif_spec x0 dx (Z.of_nat n) x Hd ltac:(lia) Hx) as (i & Hi & Hr & Hxi).
    exists (Z.to_nat i), (x0 + INR (Z.to_nat i) * dx), (x0 + INR (S (Z.to_nat i)) * dx). rewrite Z2Nat.id by lia.
    split; [exact Hi|]. rewrite !uniform_nth. repeat split; try lia.
    + rewrite INR_IZR_INZ, Z2Nat.id by lia. lra.
    + rewrite INR_IZR_INZ. replace (Z.of_nat (S (Z.to_nat i))) with (i + 1)%Z by lia. lra.
  - intros x Hx. apply search_unif_outside. rewrite uniform_within in Hx by exact H2. lra.
Qed.

(** A node of the table lies in the bracket only as one of its ends. *)
Lemma bracket_node xs k i a b c : increasing xs -> nth_error xs k = Some c -> nth_error xs i = Some a -> nth_error xs (S i) = Some b -> a <= c <= b ->
  (k = i /\ c = a) \/ (k = S i /\ c = b).
Proof.
  intros Hinc Hc Ha Hb Hr. destruct (Nat.lt_trichotomy k i) as [H|[H|H]].
  - pose proof (Hinc _ _ _ _ H Hc Ha). lra.
  - left. split; [exact H|]. subst. congruence.
  - destruct (Nat.eq_dec k (S i)) as [->|Hn]; [right; split; congruence|].
    pose proof (Hinc (S i) k _ _ ltac:(lia) Hb Hc). lra.
Qed.
Lemma node_within xs k c : increasing xs -> nth_error xs k = Some c -> within xs c.
Proof.
  intros Hinc Hc. assert (Hl : (k < List.length xs)%nat) by (apply nth_error_Some; congruence).
  destruct (nth_error xs 0) as [a|] eqn:Ha; [|apply nth_error_None in Ha; lia].
  destruct (nth_error xs (List.length xs - 1)) as [b|] eqn:Hb; [|apply nth_error_None in Hb; lia].
  exists a, b. repeat split; auto.
  - destruct (Nat.eq_dec k 0) as [->|]; [replace c with a by congruence; lra|]. apply Rlt_le, (Hinc O k); [lia|assumption|assumption].
  - destruct (Nat.eq_dec k (List.length xs - 1)) as [->|]; [replace c with b by congruence; lra|].
    apply Rlt_le, (Hinc k (List.length xs - 1)%nat); [lia|assumption|assumption].
Qed.

Lemma bracket_lt xs i a b : increasing xs -> nth_error xs i = Some a -> nth_error xs (S i) = Some b -> a < b.
Proof. intros H Ha Hb. apply (H i (S i)); [lia|assumption|assumption]. Qed.

Definition frac (x a b : R) : R := (x - a) / (b - a).
Lemma frac_range x a b : a < b -> a <= x <= b -> 0 <= frac x a b <= 1.
Proof.
  intros H Hx. unfold frac. assert (Hi : 0 < / (b - a)) by (apply Rinv_0_lt_compat; lra).
  assert (E : (b - a) * / (b - a) = 1) by (field; lra). unfold Rdiv. split; nra.
Qed.
Lemma frac_eq x a b : a < b -> x = a + frac x a b * (b - a).
Proof. intros. unfold frac. field. lra. Qed.

Lemma lerp_bound m M t u v : 0 <= t <= 1 -> m <= u <= M -> m <= v <= M -> m <= u * (1 - t) + v * t <= M.
Proof. intros. split; nra. Qed.

(** The value computed by Linear. *)
Lemma LinearEval_form s xs vals x : grid_ok s xs -> List.length vals = List.length xs -> within xs x ->
  exists i a b v1 v2, nth_error xs i = Some a /\ nth_error xs (S i) = Some b /\ a <= x <= b /\
    nth_error vals i = Some v1 /\ nth_error vals (S i) = Some v2 /\
    LinearEval {| l_xs := s; l_vals := vals |} x = Some (v1 * (1 - frac x a b) + v2 * frac x a b).
Proof.
  intros G HL Hx. destruct (go_in _ _ G x Hx) as (i & a & b & Hi & Ha & Hb & Hr).
  assert (Hl : (S i < List.length xs)%nat) by (apply nth_error_Some; congruence).
  destruct (nth_error vals i) as [v1|] eqn:E1; [|apply nth_error_None in E1; lia].
  destruct (nth_error vals (S i)) as [v2|] eqn:E2; [|apply nth_error_None in E2; lia].
  exists i, a, b, v1, v2. repeat split; try assumption; try tauto.
  unfold LinearEval. cbn [l_xs l_vals]. rewrite Hi. cbn [bindo].
  replace (Z.of_nat i + 1)%Z with (Z.of_nat (S i)) by lia.
  rewrite (go_val _ _ G _ _ Ha), (go_val _ _ G _ _ Hb), !at_nat, E1, E2. cbn [bindo]. f_equal.
  pose proof (bracket_lt xs i a b (go_inc _ _ G) Ha Hb). unfold frac. field. lra.
Qed.

Theorem Linear_interpolates s xs vals : grid_ok s xs -> List.length vals = List.length xs ->
  interpolates1 xs vals (LinearEval {| l_xs := s; l_vals := vals |}).
Proof.
  intros G HL. pose proof (go_inc _ _ G) as Hinc. split.
  - intros k c v Hc Hv. destruct (LinearEval_form s xs vals c G HL (node_within _ _ _ Hinc Hc)) as (i & a & b & v1 & v2 & Ha & Hb & Hr & H1 & H2 & E).
    rewrite E. f_equal. pose proof (bracket_lt _ _ _ _ Hinc Ha Hb).
    destruct (bracket_node xs k i a b c Hinc Hc Ha Hb Hr) as [[-> ->]|[-> ->]]; unfold frac.
    + replace v1 with v by congruence. field. lra.
    + replace v2 with v by congruence. field. lra.
  - intros p q Hv x Hx. destruct (LinearEval_form s xs vals x G HL Hx) as (i & a & b & v1 & v2 & Ha & Hb & Hr & H1 & H2 & E).
    rewrite E. f_equal. rewrite (Hv _ _ _ Ha H1), (Hv _ _ _ Hb H2). pose proof (bracket_lt _ _ _ _ Hinc Ha Hb). unfold frac. field. lra.
  - intros x Hx. destruct (LinearEval_form s xs vals x G HL Hx) as (i & a & b & v1 & v2 & Ha & Hb & Hr & H1 & H2 & E).
    exists i, v1, v2, (v1 * (1 - frac x a b) + v2 * frac x a b). repeat split; auto.
    + exists a, b. auto.
    + apply (lerp_bound (Rmin v1 v2) (Rmax v1 v2)); [apply frac_range; [apply (bracket_lt xs i); auto|auto]| |];
        split; auto using Rmin_l, Rmin_r, Rmax_l, Rmax_r.
    + apply (lerp_bound (Rmin v1 v2) (Rmax v1 v2)); [apply frac_range; [apply (bracket_lt xs i); auto|auto]| |];
        split; auto using Rmin_l, Rmin_r, Rmax_l, Rmax_r.
  - intros x Hx. unfold LinearEval. cbn [l_xs]. rewrite (go_out _ _ G x Hx). reflexivity.
Qed.

Lemma idx2 nx ny i j : (i < nx)%nat -> (j < ny)%nat -> (i + nx * j < nx * ny)%nat.
Proof. intros. nia. Qed.
Lemma idx3 nx ny nz i j k : (i < nx)%nat -> (j < ny)%nat -> (k < nz)%nat -> (i + nx * j + nx * ny * k < nx * ny * nz)%nat.
Proof. intros. assert (i + nx * j < nx * ny)%nat by nia. nia. Qed.
Lemma nth_ex {A} (l : list A) k : (k < List.length l)%nat -> exists v, nth_error l k = Some v.
Proof. intros H. destruct (nth_error l k) eqn:E; [eauto|]. apply nth_error_None in E. lia. Qed.

Definition bilerp (v11 v12 v21 v22 t u : R) : R := (v11 * (1 - u) + v12 * u) * (1 - t) + (v21 * (1 - u) + v22 * u) * t.

Lemma BiLinearEval_form sx sy xs ys vals x y : grid_ok sx xs -> grid_ok sy ys -> List.length vals = (List.length xs * List.length ys)%nat ->
  within xs x -> within ys y ->
  exists i j a b c d v11 v12 v21 v22, nth_error xs i = Some a /\ nth_error xs (S i) = Some b /\ a <= x <= b /\
    nth_error ys j = Some c /\ nth_error ys (S j) = Some d /\ c <= y <= d /\
    nth_error vals (i + List.length xs * j) = Some v11 /\ nth_error vals (i + List.length xs * S j) = Some v12 /\
    nth_error vals (S i + List.length xs * j) = Some v21 /\ nth_error vals (S i + List.length xs * S j) = Some v22 /\
    BiLinearEval {| b_xs := sx; b_ys := sy; b_vals := vals; b_nx := Z.of_nat (List.length xs) |} x y = Some (bilerp v11 v12 v21 v22 (frac x a b) (frac y c d)).
Proof.
  intros Gx Gy HL Hx Hy. destruct (go_in _ _ Gx x Hx) as (i & a & b & Hi & Ha & Hb & Hr).
  destruct (go_in _ _ Gy y Hy) as (j & c & d & Hj & Hc & Hd & Hs).
  assert (Hl : (S i < List.length xs)%nat) by (apply nth_error_Some; congruence).
  assert (Hm : (S j < List.length ys)%nat) by (apply nth_error_Some; congruence).
  destruct (nth_ex vals (i + List.length xs * j)) as [v11 E11]; [rewrite HL; apply idx2; lia|].
  destruct (nth_ex vals (i + List.length xs * S j)) as [v12 E12]; [rewrite HL; apply idx2; lia|].
  destruct (nth_ex vals (S i + List.length xs * j)) as [v21 E21]; [rewrite HL; apply idx2; lia|].
  destruct (nth_ex vals (S i + List.length xs * S j)) as [v22 E22]; [rewrite HL; apply idx2; lia|].
  exists i, j, a, b, c, d, v11, v12, v21, v22. do 10 (split; [assumption|]).
  unfold BiLinearEval. cbn [b_xs b_ys b_vals b_nx]. rewrite Hi, Hj. cbn [bindo]. cbv zeta.
  replace (Z.of_nat i + 1)%Z with (Z.of_nat (S i)) by lia. replace (Z.of_nat j + 1)%Z with (Z.of_nat (S j)) by lia.
  rewrite (go_n _ _ Gx), (go_n _ _ Gy).
  destruct (Z.eqb_spec (Z.of_nat (S i)) (Z.of_nat (List.length xs))); [lia|].
  destruct (Z.eqb_spec (Z.of_nat (S j)) (Z.of_nat (List.length ys))); [lia|].
  rewrite (go_val _ _ Gx _ _ Ha), (go_val _ _ Gx _ _ Hb), (go_val _ _ Gy _ _ Hc), (go_val _ _ Gy _ _ Hd). cbn [bindo].
  rewrite <- !Nat2Z.inj_mul, <- !Nat2Z.inj_add, !at_nat, E11, E12, E21, E22. cbn [bindo]. f_equal.
  pose proof (bracket_lt xs i a b (go_inc _ _ Gx) Ha Hb). pose proof (bracket_lt ys j c d (go_inc _ _ Gy) Hc Hd).
  unfold bilerp, frac. field. lra.
Qed.

Lemma frac_lo a b : frac a a b = 0.
Proof. unfold frac. unfold Rdiv. ring. Qed.
Lemma frac_hi a b : a < b -> frac b a b = 1.
Proof. intros. unfold frac. field. lra. Qed.

Theorem BiLinear_interpolates sx sy xs ys vals : grid_ok sx xs -> grid_ok sy ys -> List.length vals = (List.length xs * List.length ys)%nat ->
  interpolates2 xs ys vals (BiLinearEval {| b_xs := sx; b_ys := sy; b_vals := vals; b_nx := Z.of_nat (List.length xs) |}).
Proof.
  intros Gx Gy HL. pose proof (go_inc _ _ Gx) as Hix. pose proof (go_inc _ _ Gy) as Hiy. split.
  - intros p q e f v He Hf Hv.
    destruct (BiLinearEval_form sx sy xs ys vals e f Gx Gy HL (node_within _ _ _ Hix He) (node_within _ _ _ Hiy Hf))
      as (i & j & a & b & c & d & v11 & v12 & v21 & v22 & Ha & Hb & Hr & Hc & Hd & Hs & E11 & E12 & E21 & E22 & E).
    rewrite E. f_equal. pose proof (bracket_lt _ _ _ _ Hix Ha Hb) as Hab. pose proof (bracket_lt _ _ _ _ Hiy Hc Hd) as Hcd.
    destruct (bracket_node xs p i a b e Hix He Ha Hb Hr) as [[-> ->]|[-> ->]];
    destruct (bracket_node ys q j c d f Hiy Hf Hc Hd Hs) as [[-> ->]|[-> ->]];
    rewrite ?frac_lo, ?frac_hi by assumption; unfold bilerp.
    + replace v11 with v by congruence. ring.
    + replace v12 with v by congruence. ring.
    + replace v21 with v by congruence. ring.
    + replace v22 with v by congruence. ring.
  - intros p q r s Hv x y Hx Hy.
    destruct (BiLinearEval_form sx sy xs ys vals x y Gx Gy HL Hx Hy)
      as (i & j & a & b & c & d & v11 & v12 & v21 & v22 & Ha & Hb & Hr & Hc & Hd & Hs & E11 & E12 & E21 & E22 & E).
    rewrite E. f_equal. pose proof (bracket_lt _ _ _ _ Hix Ha Hb) as Hab. pose proof (bracket_lt _ _ _ _ Hiy Hc Hd) as Hcd.
    rewrite (Hv _ _ _ _ _ Ha Hc E11), (Hv _ _ _ _ _ Ha Hd E12), (Hv _ _ _ _ _ Hb Hc E21), (Hv _ _ _ _ _ Hb Hd E22).
    pose proof (frac_eq x a b Hab) as Ex. pose proof (frac_eq y c d Hcd) as Ey.
    set (t := frac x a b) in *. set (u := frac y c d) in *. clearbody t u. subst x y. unfold bilerp. ring.
  - intros x y Hx Hy.
    destruct (BiLinearEval_form sx sy xs ys vals x y Gx Gy HL Hx Hy)
      as (i & j & a & b & c & d & v11 & v12 & v21 & v22 & Ha & Hb & Hr & Hc & Hd & Hs & E11 & E12 & E21 & E22 & E).
    exists i, j. eexists. split; [exists a, b; auto|]. split; [exists c, d; auto|]. split; [exact E|].
    intros m M Hm. pose proof (bracket_lt _ _ _ _ Hix Ha Hb) as Hab. pose proof (bracket_lt _ _ _ _ Hiy Hc Hd) as Hcd.
    unfold bilerp. apply lerp_bound; [apply frac_range; auto| |]; (apply lerp_bound; [apply frac_range; auto| |]).
    + apply (Hm 0 0)%nat; [lia|lia|]. rewrite !Nat.add_0_r. exact E11.
    + apply (Hm 0 1)%nat; [lia|lia|]. rewrite Nat.add_0_r, Nat.add_1_r. exact E12.
    + apply (Hm 1 0)%nat; [lia|lia|]. rewrite Nat.add_0_r, Nat.add_1_r. exact E21.
    + apply (Hm 1 1)%nat; [lia|lia|]. rewrite !Nat.add_1_r. exact E22.
  - intros x y Hxy. unfold BiLinearEval. cbn [b_xs b_ys].
    destruct (search sx x) eqn:Ex; [|reflexivity]. cbn [bindo]. destruct Hxy as [H|H].
    + rewrite (go_out _ _ Gx x H) in Ex. discriminate.
    + rewrite (go_out _ _ Gy y H). reflexivity.
Qed.
