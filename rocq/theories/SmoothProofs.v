(** * Convolution and finite differences. *)
From Coq Require Import Reals Lra Lia ZArith List Bool.
From Verif Require Import SmoothModel SmoothSpec LoopFacts MatSpec MatProofs MatProofs2 InterpProofs.
Import List ListNotations.
Local Open Scope R_scope.

Lemma at_nth (l : list R) i : (0 <= i < Z.of_nat (length l))%Z -> at_ l i = Some (nth (Z.to_nat i) l 0).
Proof.
  intros H. unfold at_. destruct (Z.ltb_spec i 0); [lia|]. apply nth_error_nth'. lia.
Qed.

Lemma at_none (l : list R) i : (Z.of_nat (length l) <= i)%Z -> at_ l i = None.
Proof.
  intros H. unfold at_. destruct (Z.ltb_spec i 0); [reflexivity|]. apply nth_error_None. lia.
Qed.

Lemma fill_loop lo hi (f : nat -> option R) (g : nat -> R) (out : list R) : (0 <= lo)%Z -> (hi <= Z.of_nat (length out))%Z ->
  (forall i, (lo <= Z.of_nat i < hi)%Z -> f i = Some (g i)) ->
  exists out', zloop lo hi (fun i out => do s <- f i; wr out i s) out = Some out' /\ length out' = length out /\
    forall i, (i < length out)%nat -> nth i out' 0 = if (lo <=? Z.of_nat i)%Z && (Z.of_nat i <? hi)%Z then g i else nth i out 0.
Proof.
  intros Hlo Hhi Hf. unfold zloop.
  match goal with |- context [loop ?N ?B ?S] => destruct (loop_inv (fun k o => length o = length out /\
    forall i, (i < length out)%nat -> nth i o 0 = if (lo <=? Z.of_nat i)%Z && (Z.of_nat i <? lo + Z.of_nat k)%Z then g i else nth i out 0) N B S) as (o & E & L & H) end.
  - split; [reflexivity|]. intros i Hi. destruct (Z.leb_spec lo (Z.of_nat i)), (Z.ltb_spec (Z.of_nat i) (lo + Z.of_nat 0)); cbn [andb]; try reflexivity; lia.
  - intros k o Hk (L & H). destruct (Z.ltb_spec (lo + Z.of_nat k) 0); [lia|].
    rewrite Hf by lia. destruct (wr_some o (Z.to_nat (lo + Z.of_nat k)) (g (Z.to_nat (lo + Z.of_nat k))) 0) as (o' & E' & L' & H'); [lia|].
    exists o'. split; [exact E'|]. split; [lia|]. intros i Hi. rewrite H'. destruct (Nat.eqb_spec i (Z.to_nat (lo + Z.of_nat k))) as [->|Hne].
    + rewrite Z2Nat.id by lia. destruct (Z.leb_spec lo (lo + Z.of_nat k)), (Z.ltb_spec (lo + Z.of_nat k) (lo + Z.of_nat (S k))); cbn [andb]; try reflexivity; lia.
    + rewrite H by exact Hi. destruct (Z.leb_spec lo (Z.of_nat i)); cbn [andb]; [|reflexivity].
      destruct (Z.ltb_spec (Z.of_nat i) (lo + Z.of_nat k)), (Z.ltb_spec (Z.of_nat i) (lo + Z.of_nat (S k))); try reflexivity; lia.
  - exists o. split; [exact E|]. split; [exact L|]. intros i Hi. rewrite H by exact Hi.
    destruct (Z.leb_spec lo (Z.of_nat i)); cbn [andb]; [|reflexivity].
    destruct (Z.ltb_spec (Z.of_nat i) (lo + Z.of_nat (Z.to_nat (hi - lo)))), (Z.ltb_spec (Z.of_nat i) hi); try reflexivity; lia.
Qed.

Lemma kernel_sum_ok k sample s i : (forall j, (j < length (k_cs k))%nat ->
    sample (Z.of_nat i + Z.of_nat j - Z.of_nat (k_center k))%Z = Some (s (Z.of_nat i + Z.of_nat j - Z.of_nat (k_center k))%Z)) ->
  kernel_sum k sample i = Some (weighted k s i).
Proof.
  intros H. unfold kernel_sum, weighted. rewrite (sum_loop (length (k_cs k)) (fun j => nth j (k_cs k) 0 * s (Z.of_nat i + Z.of_nat j - Z.of_nat (k_center k))%Z)).
  - f_equal. ring.
  - intros j acc Hj. rewrite (rd_nth _ j 0) by exact Hj. rewrite H by exact Hj. f_equal. ring.
Qed.

Lemma kernel_sum_none k sample i j : (j < length (k_cs k))%nat -> sample (Z.of_nat i + Z.of_nat j - Z.of_nat (k_center k))%Z = None -> kernel_sum k sample i = None.
Proof.
  intros Hj H. unfold kernel_sum. apply (loop_none _ (S j)); [lia|]. cbn [loop]. match goal with |- match ?x with _ => _ end = None => destruct x; [|reflexivity] end.
  rewrite (rd_nth _ j 0) by exact Hj. rewrite H. reflexivity.
Qed.

(** What the code reads outside the data. *)
Definition coded (b : BC) (xs : list R) (i : Z) : R :=
  let n := Z.of_nat (length xs) in
  let at' (z : Z) := nth (Z.to_nat z) xs 0 in
  if (i <? 0)%Z then match b with Periodic => at' (n - 1 + i)%Z | Reflection => at' (- (i - 1))%Z | ZeroPad => 0 | Extension => at' 0%Z end
  else if (n <=? i)%Z then match b with Periodic => at' (i - n)%Z | Reflection => at' (2 * (n - 1) - i)%Z | ZeroPad => 0 | Extension => at' (n - 1)%Z end
  else at' i.

Lemma convolve_spec k xs b out : (k_center k < length (k_cs k) <= length xs)%nat -> length out = length xs ->
  (b = Reflection -> (k_center k = 0 \/ k_center k + 1 < length (k_cs k))%nat) ->
  exists out', convolve_at k xs b out = Some out' /\ length out' = length xs /\
    forall i, (i < length xs)%nat -> nth i out' 0 = weighted k (coded b xs) i.
Proof.
  intros Hk Lo Hrefl. unfold convolve_at. cbv zeta. set (n := length xs) in *. set (m := length (k_cs k)) in *. set (c := k_center k) in *.
  fold n m.
  destruct (fill_loop 0 (Z.of_nat c + 1) (kernel_sum k (left_sample b xs)) (weighted k (coded b xs)) out) as (o1 & E1 & L1 & H1); [lia|lia| |].
  { intros i Hi. apply kernel_sum_ok. fold c. intros j Hj. fold m in Hj. set (z := (Z.of_nat i + Z.of_nat j - Z.of_nat c)%Z).
    assert (Hz : (- Z.of_nat c <= z < Z.of_nat n)%Z) by lia. unfold left_sample, coded. fold n. cbv zeta.
    destruct (Z.ltb_spec z 0).
    - destruct b; try reflexivity; rewrite at_nth; try reflexivity; fold n; try lia; destruct (Hrefl eq_refl); lia.
    - destruct (Z.leb_spec (Z.of_nat n) z); [lia|]. apply at_nth. fold n. lia. }
  rewrite E1.
  destruct (fill_loop (Z.of_nat c + 1) (Z.of_nat n - (Z.of_nat m - 1 - Z.of_nat c)) (kernel_sum k (at_ xs)) (weighted k (coded b xs)) o1) as (o2 & E2 & L2 & H2); [lia|lia| |].
  { intros i Hi. apply kernel_sum_ok. fold c. intros j Hj. fold m in Hj. set (z := (Z.of_nat i + Z.of_nat j - Z.of_nat c)%Z).
    unfold coded. fold n. cbv zeta. destruct (Z.ltb_spec z 0); [lia|]. destruct (Z.leb_spec (Z.of_nat n) z); [lia|]. apply at_nth. fold n. lia. }
  rewrite E2.
  destruct (fill_loop (Z.of_nat n - (Z.of_nat m - 1 - Z.of_nat c)) (Z.of_nat n) (kernel_sum k (right_sample b xs)) (weighted k (coded b xs)) o2) as (o3 & E3 & L3 & H3); [lia|lia| |].
  { intros i Hi. apply kernel_sum_ok. fold c. intros j Hj. fold m in Hj. set (z := (Z.of_nat i + Z.of_nat j - Z.of_nat c)%Z).
    unfold right_sample, coded. fold n. cbv zeta. destruct (Z.ltb_spec z 0); [lia|].
    destruct (Z.leb_spec (Z.of_nat n) z); [|apply at_nth; fold n; lia].
    destruct b; try reflexivity; rewrite at_nth; try reflexivity; fold n; lia. }
  rewrite E3. exists o3. split; [reflexivity|]. split; [lia|]. intros i Hi. rewrite H3, H2, H1 by lia.
  repeat match goal with |- context [(?a <=? ?b)%Z] => destruct (Z.leb_spec a b) | |- context [(?a <? ?b)%Z] => destruct (Z.ltb_spec a b) end; cbn [andb]; try reflexivity; lia.
Qed.

(** A kernel longer than the data is refused. *)
Lemma convolve_long k xs b out : (k_center k < length (k_cs k))%nat -> (length xs < length (k_cs k))%nat -> length out = length xs ->
  convolve_at k xs b out = None.
Proof.
  intros Hc Hl Lo. unfold convolve_at.
  enough (E : zloop 0 (Z.of_nat (k_center k) + 1) (fun i out => do s <- kernel_sum k (left_sample b xs) i; wr out i s) out = None).
  { cbv zeta. rewrite E. reflexivity. }
  unfold zloop. replace (Z.to_nat (Z.of_nat (k_center k) + 1 - 0)) with (S (k_center k)) by lia.
  destruct (Nat.lt_ge_cases (k_center k) (length xs)) as [Hlt|Hge].
  - cbn [loop]. match goal with |- match ?x with _ => _ end = None => destruct x; [|reflexivity] end.
    destruct (Z.ltb_spec (0 + Z.of_nat (k_center k)) 0); [reflexivity|]. replace (Z.to_nat (0 + Z.of_nat (k_center k))) with (k_center k) by lia.
    rewrite (kernel_sum_none k _ _ (length (k_cs k) - 1)); [reflexivity|lia|]. unfold left_sample. cbv zeta.
    destruct (Z.ltb_spec (Z.of_nat (k_center k) + Z.of_nat (length (k_cs k) - 1) - Z.of_nat (k_center k)) 0); [lia|]. apply at_none. lia.
  - apply (loop_none _ (S (length xs))); [lia|].
    match goal with |- loop _ ?B ?S = None => pose proof (loop_inv (fun (_ : nat) (o : list R) => length o = length xs) (length xs) B S) as Hinv end.
    cbn [loop]. match goal with |- match ?x with _ => _ end = None => destruct x as [o|] eqn:Eo; [|reflexivity] end.
    assert (Lo' : length o = length xs).
    { clear Hinv. revert o Eo. generalize (length xs) at 1 as N. intros N. induction N as [|N IH]; intros o Eo; cbn [loop] in Eo; [injection Eo as <-; exact Lo|].
      match type of Eo with match ?x with _ => _ end = _ => destruct x as [o1|] eqn:E1; [|discriminate] end. specialize (IH o1 eq_refl).
      destruct (0 + Z.of_nat N <? 0)%Z; [discriminate|]. destruct (kernel_sum k (left_sample b xs) (Z.to_nat (0 + Z.of_nat N))); [|discriminate].
      destruct (wr_inv _ _ _ _ 0 Eo) as (_ & L & _). lia. }
    destruct (Z.ltb_spec (0 + Z.of_nat (length xs)) 0); [reflexivity|].
    destruct (kernel_sum k (left_sample b xs) (Z.to_nat (0 + Z.of_nat (length xs)))); [|reflexivity]. apply wr_none. lia.
Qed.

Lemma weighted_ext k s s' i : (forall j, (j < length (k_cs k))%nat -> s (Z.of_nat i + Z.of_nat j - Z.of_nat (k_center k))%Z = s' (Z.of_nat i + Z.of_nat j - Z.of_nat (k_center k))%Z) ->
  weighted k s i = weighted k s' i.
Proof. intros H. unfold weighted. apply sumf_ext. intros j Hj. rewrite H by exact Hj. reflexivity. Qed.

Lemma coded_continued b xs i : (b = Extension \/ b = ZeroPad \/ (0 <= i)%Z) -> xs <> [] ->
  (i < 2 * Z.of_nat (length xs))%Z -> coded b xs i = continued b xs i.
Proof.
  intros Hb Hx Hi. unfold coded, continued. cbv zeta. assert (Hn : (0 < length xs)%nat) by (destruct xs; [congruence|cbn; lia]).
  destruct (Z.ltb_spec i 0), (Z.leb_spec 0 i), (Z.leb_spec (Z.of_nat (length xs)) i), (Z.ltb_spec i (Z.of_nat (length xs))); cbn [andb]; try lia; try reflexivity.
  - destruct Hb as [->|[->|]]; [reflexivity|reflexivity|lia].
  - destruct b; try reflexivity. f_equal. f_equal.
    apply Z.mod_unique with (q := 1%Z); lia.
Qed.

Lemma coded_const b v n i : (0 < n)%nat -> b <> ZeroPad -> (- Z.of_nat n + 1 < i < 2 * Z.of_nat n - 1)%Z -> coded b (repeat v n) i = v.
Proof.
  intros Hn Hb Hi. unfold coded. cbv zeta. rewrite repeat_length.
  assert (H : forall z, (0 <= z < Z.of_nat n)%Z -> nth (Z.to_nat z) (repeat v n) 0 = v).
  { intros z Hz. rewrite (nth_indep _ 0 v) by (rewrite repeat_length; lia). apply nth_repeat. }
  destruct (Z.ltb_spec i 0), (Z.leb_spec (Z.of_nat n) i); destruct b; try congruence; try lia; apply H; lia.
Qed.

Lemma weighted_const k v i : weighted k (fun _ => v) i = v * sumf (length (k_cs k)) (fun j => nth j (k_cs k) 0).
Proof. unfold weighted. rewrite <- sumf_scal. apply sumf_ext. intros; ring. Qed.

(** ** Normalised kernels. *)
Lemma sumf_head n f : sumf (S n) f = f O + sumf n (fun i => f (S i)).
Proof. induction n as [|n IH]; [cbn [sumf]; ring|]. cbn [sumf] in *. rewrite IH. ring. Qed.

Lemma fold_sum (l : list R) a : fold_left Rplus l a = a + sumf (length l) (fun i => nth i l 0).
Proof.
  revert a. induction l as [|x l IH]; intros a; cbn [fold_left length]; [cbn [sumf]; ring|].
  rewrite IH, sumf_head. cbn [nth]. ring.
Qed.

Lemma normalize_ok (l : list R) : (0 < length l)%nat -> (forall i, (i < length l)%nat -> 0 < nth i l 0) ->
  length (normalize l) = length l /\ sumf (length l) (fun i => nth i (normalize l) 0) = 1 /\
  (forall i, (i < length l)%nat -> 0 < nth i (normalize l) 0) /\
  exists s, 0 < s /\ forall i, nth i (normalize l) 0 = nth i l 0 / s.
Proof.
  intros Hl Hpos. unfold normalize. cbv zeta. rewrite fold_sum, Rplus_0_l. set (s := sumf (length l) (fun i => nth i l 0)).
  assert (Hs : 0 < s).
  { subst s. revert Hpos Hl. change (forall i, (i < length l)%nat -> 0 < nth i l 0) with (forall i, (i < length l)%nat -> 0 < (fun i => nth i l 0) i).
    generalize (fun i => nth i l 0) as f. generalize (length l) as N. intros N f Hpos Hl. destruct N as [|n]; [lia|]. clear Hl. induction n as [|n IH].
    - cbn [sumf]. specialize (Hpos O ltac:(lia)). lra.
    - cbn [sumf] in *. assert (0 < f (S n)) by (apply Hpos; lia). assert (0 < sumf n f + f n) by (apply IH; intros; apply Hpos; lia). lra. }
  assert (Hnth : forall i, nth i (map (fun c => c / s) l) 0 = nth i l 0 / s).
  { intros i. replace 0 with (0 / s) at 1 by (field; lra). apply (map_nth (fun c => c / s)). }
  split; [apply map_length|]. split.
  - rewrite (sumf_ext _ (fun i => nth i (map (fun c => c / s) l) 0) (fun i => / s * nth i l 0)).
    + rewrite sumf_scal. fold s. field. lra.
    + intros i _. rewrite Hnth. unfold Rdiv. ring.
  - split; [intros i Hi; rewrite Hnth; apply Rdiv_lt_0_compat; auto|]. exists s. split; [exact Hs|exact Hnth].
Qed.

Lemma tophat_ok width : (width mod 2 = 1)%nat -> exists k, tophat_kernel width = Some k /\ length (k_cs k) = width /\
  k_center k = (width / 2)%nat /\ forall i, (i < width)%nat -> nth i (k_cs k) 0 = 1 / INR width.
Proof.
  intros Hw. unfold tophat_kernel. rewrite Hw. cbn [Nat.eqb negb]. eexists. split; [reflexivity|]. cbn [k_cs k_center].
  assert (Hw0 : (0 < width)%nat) by (destruct width; [discriminate|lia]).
  destruct (normalize_ok (repeat 1 width)) as (L & S & _ & s & Hs & H).
  - rewrite repeat_length. exact Hw0.
  - intros i Hi. rewrite repeat_length in Hi. rewrite (nth_indep _ 0 1) by (rewrite repeat_length; exact Hi). rewrite nth_repeat. lra.
  - rewrite repeat_length in L, S. split; [exact L|]. split; [reflexivity|]. intros i Hi. rewrite H.
    assert (Hn : forall i, (i < width)%nat -> nth i (repeat 1 width) 0 = 1).
    { intros j Hj. rewrite (nth_indep _ 0 1) by (rewrite repeat_length; exact Hj). apply nth_repeat. }
    rewrite Hn by exact Hi. rewrite (sumf_ext _ _ (fun _ => 1 / s)) in S by (intros j Hj; rewrite H, Hn by exact Hj; reflexivity).
    assert (Hc : forall n c, sumf n (fun _ => c) = INR n * c).
    { intros n c. induction n as [|n IH]; cbn [sumf]; [cbn; ring|]. rewrite IH, S_INR. ring. }
    rewrite Hc in S. assert (INR width = s) by (apply (Rmult_eq_reg_r (1 / s)); [rewrite S; field; lra|apply Rgt_not_eq; apply Rdiv_lt_0_compat; lra]).
    rewrite H0. reflexivity.
Qed.

Lemma gaussian_ok width sigma dx : (width mod 2 = 1)%nat -> exists k s, gaussian_kernel width sigma dx = Some k /\ 0 < s /\
  length (k_cs k) = width /\ k_center k = (width / 2)%nat /\ sumf width (fun i => nth i (k_cs k) 0) = 1 /\
  forall i, (i < width)%nat -> nth i (k_cs k) 0 = exp (- ((INR i - INR (width / 2)) * dx) ^ 2 / (2 * sigma ^ 2)) / s.
Proof.
  intros Hw. unfold gaussian_kernel. rewrite Hw. cbn [Nat.eqb negb]. cbv zeta. set (c := (width / 2)%nat).
  assert (Hc : (width = 2 * c + 1)%nat) by (subst c; pose proof (Nat.div_mod width 2); lia).
  set (g := fun i => exp (- ((INR i - INR c) * dx) ^ 2 / (2 * sigma ^ 2))).
  assert (Lz : length (zeros width) = width) by (unfold zeros; apply repeat_length).
  match goal with |- context [loop ?N ?B ?S] => destruct (loop_inv (fun t o => length o = width /\ forall i, (i < t)%nat -> nth i o 0 = g i) N B S) as (o & E & L & H) end.
  { split; [exact Lz|]. intros; lia. }
  { intros t o Ht (L & H). destruct (wr_some o t (exp (- ((INR t - INR c) * dx) * ((INR t - INR c) * dx) / (2 * sigma * sigma))) 0) as (o' & E' & L' & H'); [lia|].
    exists o'. split; [exact E'|]. split; [lia|]. intros i Hi. rewrite H'. destruct (Nat.eqb_spec i t) as [->|]; [|apply H; lia].
    unfold g. f_equal. unfold Rdiv. f_equal; [ring|]. f_equal. ring. }
  rewrite E.
  destruct (loop_from_inv (fun t o' => length o' = width /\ forall i, (i < t)%nat -> nth i o' 0 = g i) (c + 1) width
     (fun (i : nat) (cs : list R) => do c0 <- rd cs (width - 1 - i); wr cs i c0) o) as (o2 & E2 & L2 & H2).
  { lia. }
  { split; [exact L|]. intros i Hi. apply H. lia. }
  { intros t o' Ht (L' & H'). rewrite (rd_nth _ (width - 1 - t) 0) by lia.
    destruct (wr_some o' t (nth (width - 1 - t) o' 0) 0) as (o3 & E3 & L3 & H3); [lia|]. exists o3. split; [exact E3|]. split; [lia|].
    intros i Hi. rewrite H3. destruct (Nat.eqb_spec i t) as [->|]; [|apply H'; lia]. rewrite H' by lia. unfold g. f_equal. f_equal. f_equal.
    replace (INR (width - 1 - t) - INR c) with (- (INR t - INR c)); [ring|]. rewrite minus_INR by lia. rewrite Hc. rewrite minus_INR by lia.
    rewrite plus_INR, mult_INR. cbn [INR]. ring. }
  rewrite E2. destruct (normalize_ok o2) as (L3 & S3 & _ & s & Hs & H3).
  { lia. } { intros i Hi. rewrite H2 by lia. apply exp_pos. }
  eexists. exists s. split; [reflexivity|]. cbn [k_cs k_center]. split; [exact Hs|]. split; [lia|]. split; [reflexivity|].
  split; [rewrite L2 in S3; exact S3|]. intros i Hi. rewrite H3, H2 by lia. reflexivity.
Qed.

Lemma weighted_bounds k s i lo hi : (forall j, (j < length (k_cs k))%nat -> 0 <= nth j (k_cs k) 0) ->
  sumf (length (k_cs k)) (fun j => nth j (k_cs k) 0) = 1 -> (forall z, lo <= s z <= hi) -> lo <= weighted k s i <= hi.
Proof.
  intros Hp H1 Hs. unfold weighted. set (w := fun j => nth j (k_cs k) 0) in *.
  change (forall j, (j < length (k_cs k))%nat -> 0 <= w j) in Hp.
  change (lo <= sumf (length (k_cs k)) (fun j => w j * s (Z.of_nat i + Z.of_nat j - Z.of_nat (k_center k))%Z) <= hi).
  clearbody w. revert Hp H1. generalize (length (k_cs k)) as m. intros m Hp H1.
  enough (H : lo * sumf m w <= sumf m (fun j => w j * s (Z.of_nat i + Z.of_nat j - Z.of_nat (k_center k))%Z) <= hi * sumf m w) by (rewrite H1 in H; lra).
  clear H1. induction m as [|m IH]; cbn [sumf]; [lra|]. assert (H := IH ltac:(intros; apply Hp; lia)).
  specialize (Hp m ltac:(lia)). specialize (Hs (Z.of_nat i + Z.of_nat m - Z.of_nat (k_center k))%Z).
  assert (w m * lo <= w m * s (Z.of_nat i + Z.of_nat m - Z.of_nat (k_center k))%Z <= w m * hi) by (split; apply Rmult_le_compat_l; lra). lra.
Qed.
