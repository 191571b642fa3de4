(** * C208: the region that a header reports, with rounding *)
From Coq Require Import Reals Lra Lia List Bool ZArith Psatz.
From Flocq Require Import Core.
From Verif Require Import RealBase InterpProofs RoundModel Props_Round LosModel Props_Box RoundBoxModel.
Import List ListNotations.
Local Open Scope R_scope.

(** ** Proofs *)
Section Acc.
Variable M : machine.
Hypothesis HM : accurate M.

Lemma r32_abs x B : Rabs x <= B -> Rabs (r32 M x - x) <= / 2 ^ 24 * B.
Proof. intros H. destruct HM as (A & _ & _). eapply Rle_trans; [exact (A x)|]. apply Rmult_le_compat_l; [lra|exact H]. Qed.

Lemma r32_nonneg x : 0 <= x -> 0 <= r32 M x.
Proof. intros H. pose proof (r32_rel M HM x H) as [E _]. unfold u in E. apply Rle_trans with (x * (1 - / 2 ^ 24)); [apply Rmult_le_pos; lra|exact E]. Qed.

(** Some image of the coordinate p is in the interval up to n steps of error. *)
Definition held (L e : R) (n : nat) (b : R * R) (p : R) : Prop := exists k : Z, (-1 <= k <= 1)%Z /\ fst b - e <= p + IZR k * L <= fst b + snd b + INR n * e.

Definition box_inv (L e : R) (n : nat) (seen : list R) (b : R * R) : Prop :=
  - L - e <= fst b <= L /\ 0 <= snd b /\ fst b + snd b <= 2 * L + INR (S n) * e /\ forall p, In p seen -> held L e n b p.

Lemma f_box_coord_inv L e n seen b x : 0 < L -> e = / 2 ^ 20 * L -> INR n * e <= L -> 0 <= x <= L -> box_inv L e n seen b -> box_inv L e (S n) (x :: seen) (f_box_coord M L b x).
Proof.
  intros HL He Hn Hx (H1 & H2 & H3 & H4). destruct b as (o, w). cbn [fst snd] in *. assert (Pe : 0 < e) by (rewrite He; apply Rmult_lt_0_compat; lra). assert (He8 : e <= / 8 * L) by lra.
  rewrite S_INR in H3. assert (Hw : w <= 5 * L) by lra.
  assert (Grow : forall b', fst b' = o -> w <= snd b' -> forall p, In p seen -> held L e (S n) b' p).
  { intros [o' w'] Eo Ew p Hp. cbn [fst snd] in *. subst o'. destruct (H4 p Hp) as (k & Hk & Hh). exists k. split; [exact Hk|]. cbn [fst snd] in *. rewrite S_INR. lra. }
  pose proof (pos_INR n) as Pn. assert (Pne : 0 <= INR n * e) by (apply Rmult_le_pos; lra).
  unfold f_box_coord. destruct (Rltb o x && Rltb x (r32 M (o + w))) eqn:C.
  { apply andb_true_iff in C. destruct C as [C1 C2]. apply Rltb_true in C1, C2. pose proof (r32_abs (o + w) (4 * L) ltac:(apply Rabs_le; lra)) as E. apply Rabs_le_inv in E.
    unfold box_inv. cbn [fst snd]. rewrite !S_INR. split; [lra|]. split; [lra|]. split; [lra|]. intros p [<-|Hp].
    - exists 0%Z. split; [lia|]. cbn [fst snd]. rewrite S_INR. lra.
    - apply (Grow (o, w)); cbn; [reflexivity|lra|exact Hp]. }
  clear C. cbv zeta. set (x' := if Rltb (r32 M (L / 2)) (r32 M (x - o)) then r32 M (x - L) else if Rltb (r32 M (x - o)) (- r32 M (L / 2)) then r32 M (x + L) else x).
  assert (Hx' : exists k : Z, (-1 <= k <= 1)%Z /\ Rabs (x' - (x + IZR k * L)) <= e / 4 /\ - L - e / 4 <= x' <= 2 * L + e / 4).
  { unfold x'. pose proof (r32_abs (x - L) L ltac:(apply Rabs_le; lra)) as E1. pose proof (r32_abs (x + L) (2 * L) ltac:(apply Rabs_le; lra)) as E2. apply Rabs_le_inv in E1, E2.
    destruct (Rltb (r32 M (L / 2)) (r32 M (x - o))); [exists (-1)%Z|destruct (Rltb (r32 M (x - o)) (- r32 M (L / 2))); [exists 1%Z|exists 0%Z]]; (split; [lia|]); (split; [apply Rabs_le|]); lra. }
  clearbody x'. destruct Hx' as (k & Hk & Ek & Rx). apply Rabs_le_inv in Ek.
  destruct (Rltb x' o) eqn:C1; [apply Rltb_true in C1|apply Rltb_false in C1; destruct (Rltb w (r32 M (x' - o))) eqn:C2; [apply Rltb_true in C2|apply Rltb_false in C2]].
  - pose proof (r32_abs (o - x') (3 * L) ltac:(apply Rabs_le; lra)) as E1. pose proof (r32_nonneg (o - x') ltac:(lra)) as N1. apply Rabs_le_inv in E1. set (d := r32 M (o - x')) in *. clearbody d.
    pose proof (r32_abs (w + d) (9 * L) ltac:(apply Rabs_le; lra)) as E2. pose proof (r32_nonneg (w + d) ltac:(lra)) as N2. apply Rabs_le_inv in E2. set (w' := r32 M (w + d)) in *. clearbody w'.
    unfold box_inv. cbn [fst snd]. rewrite !S_INR. split; [lra|]. split; [lra|]. split; [lra|]. intros p [<-|Hp].
    + exists k. split; [exact Hk|]. cbn [fst snd]. rewrite S_INR. lra.
    + destruct (H4 p Hp) as (k' & Hk' & Hh). exists k'. split; [exact Hk'|]. cbn [fst snd] in *. rewrite S_INR. lra.
  - pose proof (r32_abs (x' - o) (4 * L) ltac:(apply Rabs_le; lra)) as E1. apply Rabs_le_inv in E1. set (d := r32 M (x' - o)) in *. clearbody d.
    unfold box_inv. cbn [fst snd]. rewrite !S_INR. split; [lra|]. split; [lra|]. split; [lra|]. intros p [<-|Hp].
    + exists k. split; [exact Hk|]. cbn [fst snd]. rewrite S_INR. lra.
    + apply (Grow (o, d)); cbn; [reflexivity|lra|exact Hp].
  - pose proof (r32_abs (x' - o) (4 * L) ltac:(apply Rabs_le; lra)) as E1. apply Rabs_le_inv in E1.
    unfold box_inv. cbn [fst snd]. rewrite !S_INR. split; [lra|]. split; [lra|]. split; [lra|]. intros p [<-|Hp].
    + exists k. split; [exact Hk|]. cbn [fst snd]. rewrite S_INR. lra.
    + apply (Grow (o, w)); cbn; [reflexivity|lra|exact Hp].
Qed.

Lemma f_box_fold L e : 0 < L -> e = / 2 ^ 20 * L -> forall xs n seen b, INR (n + length xs) * e <= L -> (forall x, In x xs -> 0 <= x <= L) -> box_inv L e n seen b ->
  box_inv L e (n + length xs) (rev xs ++ seen) (fold_left (f_box_coord M L) xs b).
Proof.
  intros HL He. assert (Pe : 0 < e) by (rewrite He; apply Rmult_lt_0_compat; lra). induction xs as [|x xs IH]; intros n seen b Hn Hx HI; cbn [length fold_left rev app].
  - rewrite Nat.add_0_r. exact HI.
  - cbn [length] in Hn. replace (n + S (length xs))%nat with (S n + length xs)%nat in * by lia. rewrite <- app_assoc. cbn [app]. apply IH; [exact Hn|intros y Hy; apply Hx; right; exact Hy|].
    apply f_box_coord_inv; [exact HL|exact He| |apply Hx; left; reflexivity|exact HI].
    eapply Rle_trans; [|exact Hn]. apply Rmult_le_compat_r; [lra|]. apply le_INR. lia.
Qed.

Lemma f_box_one L x0 xs : 0 < L -> INR (length xs) <= 2 ^ 20 -> In x0 xs -> (forall x, In x xs -> 0 <= x <= L) -> let e := / 2 ^ 20 * L in let b := f_box_limit M L (fold_left (f_box_coord M L) xs (x0, 0)) in
  0 <= snd b /\ forall x, In x xs -> held L e (length xs) b x.
Proof.
  intros HL Hn H0 Hx e b. assert (Pe : 0 < e) by (unfold e; apply Rmult_lt_0_compat; lra).
  assert (HN : INR (0 + length xs) * e <= L). { cbn [plus]. apply Rle_trans with (2 ^ 20 * e); [apply Rmult_le_compat_r; lra|]. unfold e. lra. }
  assert (I0 : box_inv L e 0 [] (x0, 0)). { specialize (Hx x0 H0). unfold box_inv. cbn [fst snd INR]. split; [lra|]. split; [lra|]. split; [lra|]. intros p []. }
  pose proof (f_box_fold L e HL eq_refl xs 0 [] (x0, 0) HN Hx I0) as (_ & F2 & _ & F4). cbn [plus] in F4. set (r := fold_left (f_box_coord M L) xs (x0, 0)) in *. unfold b, f_box_limit.
  destruct (Rltb (r32 M (L / 2)) (snd r)).
  - cbn [fst snd]. split; [lra|]. intros x Hi. specialize (Hx x Hi). exists 0%Z. split; [lia|]. cbn [fst snd]. pose proof (pos_INR (length xs)). assert (0 <= INR (length xs) * e) by (apply Rmult_le_pos; lra). lra.
  - split; [exact F2|]. intros x Hi. apply F4. rewrite app_nil_r. apply in_rev. rewrite rev_involutive. exact Hi.
Qed.

Lemma f_box_split L xs : forall a b c, fold_left (f_box_step M L) xs (a, b, c) =
  (fold_left (f_box_coord M L) (map (coord3 0) xs) a, fold_left (f_box_coord M L) (map (coord3 1) xs) b, fold_left (f_box_coord M L) (map (coord3 2) xs) c).
Proof. induction xs as [|((x, y), z) xs IH]; intros a b c; [reflexivity|]. cbn [fold_left map f_box_step]. apply IH. Qed.
End Acc.

(** ** C208 *)

(** Up to 2^20 particles: the region holds an image of every particle up to n * 2^-20 box widths, n the number of particles. *)
Theorem C208_region_partial : forall M L xs, accurate M -> 0 < L -> xs <> [] -> INR (length xs) <= 2 ^ 20 -> (forall v a, In v xs -> 0 <= coord3 a v <= L) ->
  exists o w, f_bounding_box M xs L = Some (o, w) /\ forall a, 0 <= coord3 a w /\
    forall v, In v xs -> exists k : Z, (-1 <= k <= 1)%Z /\ coord3 a o - L / 2 ^ 20 <= coord3 a v + IZR k * L <= coord3 a o + coord3 a w + INR (length xs) * (L / 2 ^ 20).
Proof.
  intros M L xs HM HL Hne Hn Hx. destruct xs as [|((x, y), z) xs']; [congruence|]. remember ((x, y, z) :: xs') as xs eqn:Exs.
  assert (One : forall a, let b := f_box_limit M L (fold_left (f_box_coord M L) (map (coord3 a) xs) (coord3 a (x, y, z), 0)) in
    0 <= snd b /\ forall v, In v xs -> exists k : Z, (-1 <= k <= 1)%Z /\ fst b - L / 2 ^ 20 <= coord3 a v + IZR k * L <= fst b + snd b + INR (length xs) * (L / 2 ^ 20)).
  { intros a. destruct (f_box_one M HM L (coord3 a (x, y, z)) (map (coord3 a) xs) HL) as [B1 B2].
    - rewrite map_length. exact Hn.
    - apply in_map. rewrite Exs. left. reflexivity.
    - intros p Hp. apply in_map_iff in Hp. destruct Hp as (v & <- & Hv). apply Hx. exact Hv.
    - split; [exact B1|]. intros v Hv. destruct (B2 (coord3 a v) (in_map _ _ _ Hv)) as (k & Hk & Hh). rewrite map_length in Hh. exists k. split; [exact Hk|].
      unfold Rdiv. rewrite (Rmult_comm L). exact Hh. }
  unfold f_bounding_box. rewrite Exs. cbv iota beta. rewrite f_box_split. rewrite <- Exs. eexists. eexists. split; [reflexivity|]. intros a.
  destruct a as [|[|a]]; [exact (One 0%nat)|exact (One 1%nat)|exact (One 2%nat)].
Qed.
Print Assumptions C208_region_partial.

(** IEEE arithmetic: particles at 1 and 17 in a box of width 64, and then n particles that come down from 1 in steps of 2^-24: the lower end of the region moves with them, the width stays 16, so
    that the upper end falls below the particle at 17, by n * 2^-24. *)
Lemma ieee32_exact x m e : x = IZR m * bpow radix2 e -> (Z.abs m < 2 ^ 24)%Z -> r32 ieee x = x.
Proof. intros -> Hm. cbn [r32 ieee]. apply round_generic; [apply valid_rnd_N|]. apply generic_format_FLX. exists (Float radix2 m e); [reflexivity|exact Hm]. Qed.

Lemma ieee32_sticks : r32 ieee (16 + / 2 ^ 24) = 16.
Proof.
  cbn [r32 ieee]. unfold round, scaled_mantissa, cexp, F2R. cbn [Fnum Fexp].
  assert (Em : mag radix2 (16 + / 2 ^ 24) = 5%Z :> Z). { apply mag_unique. rewrite Rabs_pos_eq by lra. cbn. lra. }
  rewrite Em. change (FLX_exp 24 5) with (-19)%Z. replace (Znearest (fun x => negb (Z.even x)) ((16 + / 2 ^ 24) * bpow radix2 (- -19))) with 8388608%Z.
  - cbn. lra.
  - symmetry. apply Znearest_imp. change (bpow radix2 (- -19)) with (IZR 524288). apply Rabs_lt. lra.
Qed.

Definition falling (n : nat) : list R := map (fun k => 1 - INR k * / 2 ^ 24) (seq 1 n).

Lemma drift n : (n < 2 ^ 23)%nat -> fold_left (f_box_coord ieee 64) (falling n) (1, 16) = (1 - INR n * / 2 ^ 24, 16).
Proof.
  assert (Half : r32 ieee (64 / 2) = 32). { replace (64 / 2) with 32 by field. apply (ieee32_exact _ 32 0); [cbn; ring|cbn; lia]. }
  assert (Small : r32 ieee (/ 2 ^ 24) = / 2 ^ 24) by (apply (ieee32_exact _ 1 (-24)); [cbn; lra|cbn; lia]).
  assert (SmallN : r32 ieee (- / 2 ^ 24) = - / 2 ^ 24) by (apply (ieee32_exact _ (-1) (-24)); [cbn; lra|cbn; lia]).
  induction n as [|n IH]; intros Hn.
  - cbn [falling seq map fold_left INR]. f_equal. ring.
  - unfold falling in *. rewrite seq_S, map_app, fold_left_app, IH by lia. cbn [map fold_left plus]. unfold f_box_coord. set (o := 1 - INR n * / 2 ^ 24).
    replace (1 - INR (S n) * / 2 ^ 24) with (o - / 2 ^ 24) by (unfold o; rewrite S_INR; ring). clearbody o.
    rewrite (proj2 (Rltb_false o (o - / 2 ^ 24))) by lra. cbn [andb]. cbv zeta. replace (o - / 2 ^ 24 - o) with (- / 2 ^ 24) by ring. rewrite Half, SmallN.
    rewrite (proj2 (Rltb_false 32 (- / 2 ^ 24))) by lra. rewrite (proj2 (Rltb_false (- / 2 ^ 24) (- (32)))) by lra. rewrite (proj2 (Rltb_true (o - / 2 ^ 24) o)) by lra.
    replace (o - (o - / 2 ^ 24)) with (/ 2 ^ 24) by ring. rewrite Small, ieee32_sticks. reflexivity.
Qed.

Theorem C208_drift_refuted : forall n, (1 <= n < 2 ^ 23)%nat -> exists o w, f_bounding_box ieee (map (fun x => (x, 0, 0)) (1 :: 17 :: falling n)) 64 = Some (o, w) /\
  coord3 0 o = 1 - INR n / 2 ^ 24 /\ coord3 0 w = 16 /\ coord3 0 o + coord3 0 w = 17 - INR n / 2 ^ 24 /\
  forall k : Z, ~ (coord3 0 o <= 17 + IZR k * 64 <= coord3 0 o + coord3 0 w).
Proof.
  intros n Hn. unfold f_bounding_box. cbn [map]. cbn [map]. match goal with |- context [fold_left (f_box_step ieee 64) ?l _] => rewrite (f_box_split ieee 64 l) end.
  assert (Sixteen : r32 ieee 16 = 16) by (apply (ieee32_exact _ 1 4); [cbn; ring|cbn; lia]).
  assert (One : r32 ieee 1 = 1) by (apply (ieee32_exact _ 1 0); [cbn; ring|cbn; lia]).
  assert (Zero : r32 ieee 0 = 0) by (apply (ieee32_exact _ 0 0); [cbn; ring|cbn; lia]).
  assert (Half : r32 ieee (64 / 2) = 32). { replace (64 / 2) with 32 by field. apply (ieee32_exact _ 32 0); [cbn; ring|cbn; lia]. }
  assert (EX : fold_left (f_box_coord ieee 64) (map (coord3 0) ((1, 0, 0) :: (17, 0, 0) :: map (fun x => (x, 0, 0)) (falling n))) (1, 0) = (1 - INR n * / 2 ^ 24, 16)).
  { cbn [map fold_left coord3 fst snd]. rewrite map_map. cbn [coord3 fst]. rewrite map_id.
    assert (S1 : f_box_coord ieee 64 (1, 0) 1 = (1, 0)).
    { unfold f_box_coord. rewrite (proj2 (Rltb_false 1 1)) by lra. cbn [andb]. cbv zeta. rewrite Rminus_diag_eq, Zero, Half by reflexivity. rewrite (proj2 (Rltb_false 32 0)) by lra. rewrite (proj2 (Rltb_false 0 (- (32)))) by lra.
      rewrite (proj2 (Rltb_false 1 1)) by lra. rewrite Rminus_diag_eq, Zero by reflexivity. rewrite (proj2 (Rltb_false 0 0)) by lra. reflexivity. }
    assert (S2 : f_box_coord ieee 64 (1, 0) 17 = (1, 16)).
    { unfold f_box_coord. rewrite Rplus_0_r, One. rewrite (proj2 (Rltb_false 17 1)) by lra. rewrite andb_false_r. cbv zeta. replace (17 - 1) with 16 by ring. rewrite Sixteen, Half.
      rewrite (proj2 (Rltb_false 32 16)) by lra. rewrite (proj2 (Rltb_false 16 (- (32)))) by lra. rewrite (proj2 (Rltb_false 17 1)) by lra. replace (17 - 1) with 16 by ring. rewrite Sixteen. rewrite (proj2 (Rltb_true 0 16)) by lra. reflexivity. }
    rewrite S1, S2. apply drift. apply Hn. }
  rewrite EX. unfold f_box_limit at 1 4. cbn [snd]. rewrite Half. rewrite (proj2 (Rltb_false 32 16)) by lra. eexists. eexists. split; [reflexivity|]. cbn [coord3 fst snd]. unfold Rdiv. split; [reflexivity|]. split; [reflexivity|]. split; [ring|]. intros k [K1 K2].
  assert (N1 : 1 <= INR n) by (apply (le_INR 1); apply Hn). assert (N2 : INR n < 2 ^ 23). { destruct Hn as [_ Hn]. apply lt_INR in Hn. rewrite pow_INR in Hn. replace (INR 2) with 2 in Hn by (cbn; ring). exact Hn. }
  assert (IZR k < 0) by lra. assert (-1 < IZR k) by lra. apply lt_IZR in H, H0. lia.
Qed.
Print Assumptions C208_drift_refuted.

Example C208_nonvacuous : accurate ieee /\ INR (length [(1, 0, 0); (17, 0, 0)]) <= 2 ^ 20 /\ forall v a, In v [(1, 0, 0); (17, 0, 0)] -> 0 <= coord3 a v <= 64.
Proof. split; [exact ieee_accurate|]. split; [cbn; lra|]. intros v a [<-|[<-|[]]]; destruct a as [|[|a]]; cbn; lra. Qed.
