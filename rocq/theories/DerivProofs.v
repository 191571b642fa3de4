(** * Finite differences (calc.Deriv). *)
From Coq Require Import Reals Lra Lia ZArith List Bool.
From Verif Require Import SmoothModel SmoothSpec LoopFacts MatSpec MatProofs MatProofs2 InterpProofs SmoothProofs.
Import List ListNotations.
Local Open Scope R_scope.

Definition d2_value (xs ys : list R) (i : nat) : R :=
  let n := length xs in
  if (i =? 0)%nat then (-3 * nth 0 ys 0 + 4 * nth 1 ys 0 - nth 2 ys 0) / (nth 2 xs 0 - nth 0 xs 0)
  else if (i =? n - 1)%nat then - (-3 * nth (n - 1) ys 0 + 4 * nth (n - 2) ys 0 - nth (n - 3) ys 0) / (nth (n - 1) xs 0 - nth (n - 3) xs 0)
  else (nth (i + 1) ys 0 - nth (i - 1) ys 0) / (nth (i + 1) xs 0 - nth (i - 1) xs 0).

Definition d4_value (xs ys : list R) (i : nat) : R :=
  let n := length xs in
  let y k := nth k ys 0 in let x k := nth k xs 0 in
  if (i =? 0)%nat then (-3 * y 4%nat + 16 * y 3%nat - 36 * y 2%nat + 48 * y 1%nat - 25 * y 0%nat) / (3 * (x 4%nat - x 0%nat))
  else if (i =? 1)%nat then (-3 * y 0%nat - 10 * y 1%nat + 18 * y 2%nat - 6 * y 3%nat + y 4%nat) / (3 * (x 4%nat - x 0%nat))
  else if (i =? n - 1)%nat then (-3 * y (n - 5)%nat + 16 * y (n - 4)%nat - 36 * y (n - 3)%nat + 48 * y (n - 2)%nat - 25 * y (n - 1)%nat) / (3 * (x (n - 5)%nat - x (n - 1)%nat))
  else if (i =? n - 2)%nat then (-3 * y (n - 1)%nat - 10 * y (n - 2)%nat + 18 * y (n - 3)%nat - 6 * y (n - 4)%nat + y (n - 5)%nat) / (3 * (x (n - 5)%nat - x (n - 1)%nat))
  else (- y (i + 2)%nat + 8 * y (i + 1)%nat - 8 * y (i - 1)%nat + y (i - 2)%nat) / (3 * (x (i + 2)%nat - x (i - 1)%nat)).

Lemma deriv2_ok xs ys out : length ys = length xs -> length out = length xs -> (3 <= length xs)%nat ->
  exists out', deriv xs ys 2 out = Some out' /\ length out' = length xs /\
    forall i, (i < length xs)%nat -> nth i out' 0 = d2_value xs ys i.
Proof.
  intros Ly Lo Hn. unfold deriv. cbv zeta. rewrite Ly, Lo, Nat.eqb_refl. cbn [negb orb Nat.eqb]. set (n := length xs) in *.
  set (f := fun i => (nth (i + 1) ys 0 - nth (i - 1) ys 0) / (nth (i + 1) xs 0 - nth (i - 1) xs 0)).
  match goal with |- context [loop_from 1 (n - 1) ?B out] => destruct (loop_from_inv (fun t o => length o = n /\ forall i, (1 <= i < t)%nat -> nth i o 0 = f i) 1 (n - 1) B out) as (o & E & L & H) end.
  { lia. } { split; [exact Lo|]. intros; lia. }
  { intros t o Ht (L & H). rewrite (rd_nth ys (t + 1) 0), (rd_nth ys (t - 1) 0), (rd_nth xs (t + 1) 0), (rd_nth xs (t - 1) 0) by (rewrite ?Ly; fold n; lia).
    destruct (wr_some o t (f t) 0) as (o' & E' & L' & H'); [lia|]. exists o'. split; [exact E'|]. split; [lia|].
    intros i Hi. rewrite H'. destruct (Nat.eqb_spec i t) as [->|]; [reflexivity|apply H; lia]. }
  rewrite E. rewrite (rd_nth ys 0 0), (rd_nth ys 1 0), (rd_nth ys 2 0), (rd_nth xs 2 0), (rd_nth xs 0 0) by (rewrite ?Ly; fold n; lia).
  match goal with |- context [wr o 0 ?v] => destruct (wr_some o 0 v 0) as (o2 & E2 & L2 & H2); [lia|] end. rewrite E2.
  rewrite !at_nth by (rewrite ?Ly; fold n; lia).
  match goal with |- context [wr o2 (n - 1) ?v] => destruct (wr_some o2 (n - 1) v 0) as (o3 & E3 & L3 & H3); [lia|] end. rewrite E3.
  exists o3. split; [reflexivity|]. split; [lia|]. intros i Hi. rewrite H3, H2. unfold d2_value. fold n. cbv zeta.
  destruct (Nat.eqb_spec i 0) as [->|H0].
  - destruct (Nat.eqb_spec 0 (n - 1)); [lia|]. reflexivity.
  - destruct (Nat.eqb_spec i (n - 1)) as [->|H1].
    + repeat match goal with |- context [Z.to_nat (Z.of_nat n + ?a)] => let v := eval compute in (Z.to_nat (- a)) in replace (Z.to_nat (Z.of_nat n + a)) with (n - v)%nat by lia end.
      reflexivity.
    + apply H. lia.
Qed.

Lemma deriv4_ok xs ys out : length ys = length xs -> length out = length xs -> (5 <= length xs)%nat ->
  exists out', deriv xs ys 4 out = Some out' /\ length out' = length xs /\
    forall i, (i < length xs)%nat -> nth i out' 0 = d4_value xs ys i.
Proof.
  intros Ly Lo Hn. unfold deriv. cbv zeta. rewrite Ly, Lo, Nat.eqb_refl. cbn [negb orb Nat.eqb]. set (n := length xs) in *.
  set (f := fun i => (- nth (i + 2) ys 0 + 8 * nth (i + 1) ys 0 - 8 * nth (i - 1) ys 0 + nth (i - 2) ys 0) / (3 * (nth (i + 2) xs 0 - nth (i - 1) xs 0))).
  match goal with |- context [loop_from 2 (n - 2) ?B out] => destruct (loop_from_inv (fun t o => length o = n /\ forall i, (2 <= i < t)%nat -> nth i o 0 = f i) 2 (n - 2) B out) as (o & E & L & H) end.
  { lia. } { split; [exact Lo|]. intros; lia. }
  { intros t o Ht (L & H). rewrite (rd_nth ys (t + 2) 0), (rd_nth ys (t + 1) 0), (rd_nth ys (t - 1) 0), (rd_nth ys (t - 2) 0), (rd_nth xs (t + 2) 0), (rd_nth xs (t - 1) 0) by (rewrite ?Ly; fold n; lia).
    destruct (wr_some o t (f t) 0) as (o' & E' & L' & H'); [lia|]. exists o'. split; [exact E'|]. split; [lia|].
    intros i Hi. rewrite H'. destruct (Nat.eqb_spec i t) as [->|]; [reflexivity|apply H; lia]. }
  rewrite E. rewrite (rd_nth ys 0 0), (rd_nth ys 1 0), (rd_nth ys 2 0), (rd_nth ys 3 0), (rd_nth ys 4 0), (rd_nth xs 4 0), (rd_nth xs 0 0) by (rewrite ?Ly; fold n; lia).
  match goal with |- context [wr o 0 ?v] => destruct (wr_some o 0 v 0) as (o2 & E2 & L2 & H2); [lia|] end. rewrite E2.
  rewrite !at_nth by (rewrite ?Ly; fold n; lia).
  match goal with |- context [wr o2 (n - 2) ?v] => destruct (wr_some o2 (n - 2) v 0) as (o3 & E3 & L3 & H3); [lia|] end. rewrite E3.
  match goal with |- context [wr o3 1 ?v] => destruct (wr_some o3 1 v 0) as (o4 & E4 & L4 & H4); [lia|] end. rewrite E4.
  match goal with |- context [wr o4 (n - 1) ?v] => destruct (wr_some o4 (n - 1) v 0) as (o5 & E5 & L5 & H5); [lia|] end. rewrite E5.
  exists o5. split; [reflexivity|]. split; [lia|]. intros i Hi. rewrite H5, H4, H3, H2. unfold d4_value. fold n. cbv zeta.
  repeat match goal with |- context [Z.to_nat (Z.of_nat n + ?a)] => let v := eval compute in (Z.to_nat (- a)) in replace (Z.to_nat (Z.of_nat n + a)) with (n - v)%nat by lia end.
  destruct (Nat.eqb_spec i 0) as [->|H0]; [destruct (Nat.eqb_spec 0 (n - 1)), (Nat.eqb_spec 0 1), (Nat.eqb_spec 0 (n - 2)); try lia; reflexivity|].
  destruct (Nat.eqb_spec i 1) as [->|]; [destruct (Nat.eqb_spec 1 (n - 1)); try lia; reflexivity|].
  destruct (Nat.eqb_spec i (n - 1)) as [->|]; [reflexivity|].
  destruct (Nat.eqb_spec i (n - 2)) as [->|]; [reflexivity|]. apply H. lia.
Qed.

(** Too few points are refused. *)
Lemma loop_from_empty {S : Type} a b body (s : S) : (b <= a)%nat -> loop_from a b body s = Some s.
Proof. intros H. unfold loop_from. replace (b - a)%nat with O by lia. reflexivity. Qed.

Lemma deriv2_short xs ys out : (length xs < 3)%nat -> deriv xs ys 2 out = None.
Proof.
  intros Hn. unfold deriv. cbv zeta. destruct (Nat.eqb_spec (length ys) (length xs)) as [Ly|]; [|reflexivity].
  destruct (Nat.eqb_spec (length out) (length xs)); [|reflexivity]. cbn [negb orb Nat.eqb].
  rewrite loop_from_empty by lia. destruct (rd ys 0); [|reflexivity]. destruct (rd ys 1); [|reflexivity]. rewrite (rd_none ys 2) by lia. reflexivity.
Qed.

Lemma deriv4_short xs ys out : (length xs < 5)%nat -> deriv xs ys 4 out = None.
Proof.
  intros Hn. unfold deriv. cbv zeta. destruct (Nat.eqb_spec (length ys) (length xs)) as [Ly|]; [|reflexivity].
  destruct (Nat.eqb_spec (length out) (length xs)); [|reflexivity]. cbn [negb orb Nat.eqb].
  rewrite loop_from_empty by lia. do 4 (match goal with |- context [rd ys ?k] => destruct (rd ys k); [|reflexivity] end). rewrite (rd_none ys 4) by lia. reflexivity.
Qed.

Lemma grid_length x0 dx n : length (grid_points x0 dx n) = n.
Proof. unfold grid_points. rewrite map_length. apply seq_length. Qed.
Lemma grid_nth x0 dx n i : (i < n)%nat -> nth i (grid_points x0 dx n) 0 = x0 + INR i * dx.
Proof.
  intros H. unfold grid_points. rewrite (nth_indep _ 0 ((fun i => x0 + INR i * dx) O)) by (rewrite map_length, seq_length; exact H).
  rewrite (map_nth (fun i => x0 + INR i * dx)), seq_nth by exact H. reflexivity.
Qed.
Lemma samples_length p x0 dx n : length (samples p x0 dx n) = n.
Proof. unfold samples. rewrite map_length. apply grid_length. Qed.
Lemma samples_nth p x0 dx n i : (i < n)%nat -> nth i (samples p x0 dx n) 0 = peval p (x0 + INR i * dx).
Proof.
  intros H. unfold samples. rewrite (nth_indep _ 0 (peval p 0)) by (rewrite map_length, grid_length; exact H).
  rewrite (map_nth (peval p)), grid_nth by exact H. reflexivity.
Qed.

Ltac poly3 p := destruct p as [|?a [|?b [|?c [|? ?]]]]; cbn [length] in *; try lia; cbn [pderiv pderiv_from peval INR].
Ltac poly5 p := destruct p as [|?a [|?b [|?c [|?d [|?e [|? ?]]]]]]; cbn [length] in *; try lia; cbn [pderiv pderiv_from peval INR].

Lemma d2_exact p x0 dx n i : (length p <= 3)%nat -> (3 <= n)%nat -> dx <> 0 -> (i < n)%nat ->
  d2_value (grid_points x0 dx n) (samples p x0 dx n) i = peval (pderiv p) (x0 + INR i * dx).
Proof.
  intros Hp Hn Hdx Hi. unfold d2_value. rewrite grid_length. cbv zeta.
  destruct (Nat.eqb_spec i 0) as [->|].
  - rewrite !grid_nth, !samples_nth by lia. poly3 p; field; lra.
  - destruct (Nat.eqb_spec i (n - 1)) as [->|].
    + rewrite !grid_nth, !samples_nth by lia. rewrite !minus_INR by lia. poly3 p; field; lra.
    + rewrite !grid_nth, !samples_nth by lia. rewrite plus_INR, !minus_INR by lia. poly3 p; field; lra.
Qed.

(** The two points at either end of the fourth-order scheme are exact; in between the value is 4/3 of the derivative. *)
Lemma d4_value_uniform p x0 dx n i : (length p <= 5)%nat -> (5 <= n)%nat -> dx <> 0 -> (i < n)%nat ->
  d4_value (grid_points x0 dx n) (samples p x0 dx n) i =
    (if (i <? 2)%nat || (n <=? i + 2)%nat then 1 else 4 / 3) * peval (pderiv p) (x0 + INR i * dx).
Proof.
  intros Hp Hn Hdx Hi. unfold d4_value. rewrite grid_length. cbv zeta.
  destruct (Nat.eqb_spec i 0) as [->|].
  { cbn [Nat.ltb Nat.leb orb]. rewrite !grid_nth, !samples_nth by lia. poly5 p; field; lra. }
  destruct (Nat.eqb_spec i 1) as [->|].
  { cbn [Nat.ltb Nat.leb orb]. rewrite !grid_nth, !samples_nth by lia. poly5 p; field; lra. }
  destruct (Nat.ltb_spec i 2); [lia|]. cbn [orb].
  destruct (Nat.eqb_spec i (n - 1)) as [->|].
  { destruct (Nat.leb_spec n (n - 1 + 2)); [|lia]. rewrite !grid_nth, !samples_nth by lia. rewrite !minus_INR by lia. poly5 p; field; lra. }
  destruct (Nat.eqb_spec i (n - 2)) as [->|].
  { destruct (Nat.leb_spec n (n - 2 + 2)); [|lia]. rewrite !grid_nth, !samples_nth by lia. rewrite !minus_INR by lia. poly5 p; field; lra. }
  destruct (Nat.leb_spec n (i + 2)); [lia|]. rewrite !grid_nth, !samples_nth by lia. rewrite !plus_INR, !minus_INR by lia. poly5 p; field; lra.
Qed.
