(** * The Savitzky-Golay kernels: moments. *)
From Coq Require Import Reals Lra Lia ZArith List Bool Psatz.
From Verif Require Import SmoothModel SmoothSpec LoopFacts MatModel MatSpec MatProofs MatProofs2 MatProofs3 MatProofs4 InterpProofs SmoothProofs DerivProofs SavgolProofs SavgolProofs2.
Import List ListNotations.
Local Open Scope R_scope.

(** ** Closed forms of the even power sums *)
Lemma psum_step n q : psum (S n) (2 * q) = psum n (2 * q) + 2 * INR (S n) ^ (2 * q).
Proof.
  rewrite <- !power_sum_ok. unfold power_sum. cbv zeta. rewrite !(fold_pow (fun k => INR k ^ (2 * q))), !(fold_pow (fun k => (- INR k) ^ (2 * q))).
  cbn [sumf]. change (1 + n)%nat with (S n). replace ((- INR (S n)) ^ (2 * q)) with (INR (S n) ^ (2 * q)); [ring|].
  rewrite !pow_mult. f_equal. ring.
Qed.
Lemma psum_0n p : (p <> 0)%nat -> psum 0 p = 0.
Proof. intros H. unfold psum, offset. cbn [Nat.mul Nat.add sumf INR]. destruct p; [lia|]. cbn [pow]. ring. Qed.

Lemma psum0 n : psum n 0 = 2 * INR n + 1.
Proof. induction n as [|n IH]; [unfold psum, offset; cbn [Nat.mul Nat.add sumf INR pow]; ring|]. pose proof (psum_step n 0) as E. change (2 * 0)%nat with O in E. rewrite E, IH, S_INR. cbn [pow]. ring. Qed.
Ltac closed n IH k := induction n as [|n IH]; [rewrite psum_0n by lia; cbn [INR]; field|
  let h := eval compute in (Nat.div2 k) in let E := fresh in pose proof (psum_step n h) as E; change (2 * h)%nat with k in E; rewrite E, IH, S_INR; field].
Lemma psum2 n : psum n 2 = INR n * (INR n + 1) * (2 * INR n + 1) / 3.
Proof. closed n IH 2%nat. Qed.
Lemma psum4 n : psum n 4 = INR n * (INR n + 1) * (2 * INR n + 1) * (3 * (INR n * (INR n + 1)) - 1) / 15.
Proof. closed n IH 4%nat. Qed.
Lemma psum6 n : psum n 6 = INR n * (INR n + 1) * (2 * INR n + 1) * (3 * (INR n * (INR n + 1)) ^ 2 - 3 * (INR n * (INR n + 1)) + 1) / 21.
Proof. closed n IH 6%nat. Qed.
Lemma psum8 n : psum n 8 = INR n * (INR n + 1) * (2 * INR n + 1) * (5 * (INR n * (INR n + 1)) ^ 3 - 10 * (INR n * (INR n + 1)) ^ 2 + 9 * (INR n * (INR n + 1)) - 3) / 45.
Proof. closed n IH 8%nat. Qed.

Lemma psum_ineq n : (2 <= n)%nat -> (psum n 4 * psum n 0 - psum n 2 * psum n 2) * psum n 8 < (psum n 6 * psum n 0 - psum n 4 * psum n 2) * psum n 6.
Proof.
  intros H. apply le_INR in H. cbn [INR] in H. rewrite psum0, psum2, psum4, psum6, psum8. set (x := INR n) in *. clearbody x.
  set (N := x * (x + 1)). assert (HN : 6 <= N) by (subst N; nra). set (T := 2 * x + 1). assert (HT : 5 <= T) by (subst T; lra). clearbody N T.
  replace ((N * T * (3 * N - 1) / 15 * T - N * T / 3 * (N * T / 3)) * (N * T * (5 * N ^ 3 - 10 * N ^ 2 + 9 * N - 3) / 45))
    with (N ^ 2 * T ^ 3 * (((3 * N - 1) / 15 - N / 9) * ((5 * N ^ 3 - 10 * N ^ 2 + 9 * N - 3) / 45))) by field.
  replace ((N * T * (3 * N ^ 2 - 3 * N + 1) / 21 * T - N * T * (3 * N - 1) / 15 * (N * T / 3)) * (N * T * (3 * N ^ 2 - 3 * N + 1) / 21))
    with (N ^ 2 * T ^ 3 * (((3 * N ^ 2 - 3 * N + 1) / 21 - N * (3 * N - 1) / 45) * ((3 * N ^ 2 - 3 * N + 1) / 21))) by field.
  apply Rmult_lt_compat_l; [apply Rmult_lt_0_compat; apply pow_lt; lra|].
  replace N with (6 + (N - 6)) by ring. assert (Hu : 0 <= N - 6) by lra. revert Hu. generalize (N - 6). intros u Hu.
  assert (0 <= u * u) by nra. assert (0 <= u * u * u) by nra. assert (0 <= u * u * u * u) by nra. nra.
Qed.

Lemma offset_sq n t : offset n t ^ 2 = 0 \/ 1 <= offset n t ^ 2.
Proof.
  unfold offset. rewrite !INR_IZR_INZ, <- minus_IZR. generalize (Z.of_nat t - Z.of_nat n)%Z. intros z.
  destruct (Z.eq_dec z 0) as [->|Hz]; [left; ring|right]. replace (IZR z ^ 2) with (IZR (z * z)) by (rewrite mult_IZR; ring). apply IZR_le. nia.
Qed.

Lemma psum_mono n a b : (1 <= a <= b)%nat -> psum n (2 * a) <= psum n (2 * b).
Proof.
  intros H. unfold psum. generalize (2 * n + 1)%nat as N. intros N. induction N as [|N IH]; cbn [sumf]; [lra|].
  assert (offset n N ^ (2 * a) <= offset n N ^ (2 * b)); [|lra]. rewrite !pow_mult. destruct (offset_sq n N) as [->|H1].
  - rewrite !pow_i by lia. lra.
  - apply Rle_pow; [exact H1|lia].
Qed.

(** ** The third step of the factorisation for quartics interchanges rows 2 and 4 *)
Lemma pivot2 n l vv V im0 : (2 <= n)%nat -> List.length V = 25%nat -> List.length l = 25%nat ->
  (forall i j, (i < 5)%nat -> (j < 5)%nat -> mg 5 l i j = psum n (i + j)) ->
  (forall i j, (i < 5)%nat -> (j < 5)%nat -> mg 5 V i j = elim 1 (elim 0 (mg 5 l)) i j) ->
  rowScales 5 l = Some vv -> List.length vv = 5%nat -> pivotSearch 5 2 V vv im0 = Some 4%nat.
Proof.
  intros Hn LV L HA HV Ev Lv. assert (Hrow := rowScales_exact 5 _ _ L Ev).
  assert (S1 : psum n 1 = 0) by (apply (psum_odd n 0)). assert (S3 : psum n 3 = 0) by (apply (psum_odd n 1)).
  assert (S5 : psum n 5 = 0) by (apply (psum_odd n 2)). assert (S7 : psum n 7 = 0) by (apply (psum_odd n 3)).
  assert (S0 : 0 < psum n 0) by (apply (psum_even_pos n 0); lia). assert (S2 : 0 < psum n 2) by (apply (psum_even_pos n 1); lia).
  assert (S4 : 0 < psum n 4) by (apply (psum_even_pos n 2); lia). assert (S6 : 0 < psum n 6) by (apply (psum_even_pos n 3); lia).
  assert (S8 : 0 < psum n 8) by (apply (psum_even_pos n 4); lia).
  assert (S48 : psum n 4 <= psum n 8) by (apply (psum_mono n 2 4); lia). assert (S68 : psum n 6 <= psum n 8) by (apply (psum_mono n 3 4); lia).
  assert (HV2 : forall i, (2 <= i < 5)%nat -> mg 5 V i 2 = psum n (i + 2) - psum n i / psum n 0 * psum n 2).
  { intros i Hi. rewrite HV by lia. unfold elim. destruct (Nat.ltb_spec 1 i); [|lia]. destruct (Nat.ltb_spec 0 i); [|lia].
    cbn [Nat.eqb Nat.ltb Nat.leb]. rewrite !HA by lia. cbn [Nat.add]. rewrite Nat.add_0_r, S1, S3. field. split; lra. }
  set (D2 := psum n 4 * psum n 0 - psum n 2 * psum n 2). set (D4 := psum n 6 * psum n 0 - psum n 4 * psum n 2).
  assert (I := psum_ineq n Hn). fold D2 D4 in I.
  assert (C2 := psum_cheb n 0 1 1). cbn [Nat.mul Nat.add] in C2. assert (HD2 : 0 <= D2) by (subst D2; lra).
  assert (C4 := psum_cheb n 0 2 1). cbn [Nat.mul Nat.add] in C4. assert (HD4' : 0 <= D4) by (subst D4; lra).
  assert (HD4 : 0 < D4) by nra.
  assert (E2 : Rabs (mg 5 V 2 2) = D2 / psum n 0).
  { rewrite HV2 by lia. cbn [Nat.add]. replace (psum n 4 - psum n 2 / psum n 0 * psum n 2) with (D2 / psum n 0) by (subst D2; field; lra).
    apply Rabs_right. apply Rle_ge. apply Rmult_le_pos; [exact HD2|]. left. apply Rinv_0_lt_compat. exact S0. }
  assert (E4 : Rabs (mg 5 V 4 2) = D4 / psum n 0).
  { rewrite HV2 by lia. cbn [Nat.add]. replace (psum n 6 - psum n 4 / psum n 0 * psum n 2) with (D4 / psum n 0) by (subst D4; field; lra).
    apply Rabs_right. apply Rle_ge. apply Rmult_le_pos; [exact HD4'|]. left. apply Rinv_0_lt_compat. exact S0. }
  assert (E3 : Rabs (mg 5 V 3 2) = 0).
  { rewrite HV2 by lia. cbn [Nat.add]. rewrite S5, S3. replace (0 - 0 / psum n 0 * psum n 2) with 0 by (field; lra). apply Rabs_R0. }
  destruct (Hrow 2%nat ltac:(lia)) as (b2 & Hb2 & (Hmax2 & _) & Ev2). destruct (Hrow 4%nat ltac:(lia)) as (b4 & Hb4 & (_ & Hat4) & Ev4).
  assert (B2 : psum n 6 <= b2).
  { specialize (Hmax2 4%nat ltac:(lia)). rewrite HA in Hmax2 by lia. cbn [Nat.add] in Hmax2. rewrite Rabs_right in Hmax2 by lra. exact Hmax2. }
  assert (B4 : b4 <= psum n 8).
  { destruct (Hat4 Hb4) as (j & Hj & <-). rewrite HA by lia. destruct j as [|[|[|[|[|j]]]]]; cbn [Nat.add]; try lia; rewrite ?S5, ?S7, ?Rabs_R0, ?Rabs_right by lra; lra. }
  assert (P4 : 0 < 1 / b4 * (D4 / psum n 0)) by (apply Rmult_lt_0_compat; apply Rdiv_lt_0_compat; lra).
  assert (Hlt : 1 / b2 * (D2 / psum n 0) < 1 / b4 * (D4 / psum n 0)).
  { apply (Rmult_lt_reg_r (b2 * b4 * psum n 0)); [apply Rmult_lt_0_compat; nra|].
    replace (1 / b2 * (D2 / psum n 0) * (b2 * b4 * psum n 0)) with (D2 * b4) by (field; lra).
    replace (1 / b4 * (D4 / psum n 0) * (b2 * b4 * psum n 0)) with (D4 * b2) by (field; lra). nra. }
  apply pivotSearch_argmax; try (assumption || lia).
  - rewrite E4, Ev4. exact P4.
  - intros i Hi. rewrite E4, Ev4. assert (Hi' : i = 2%nat \/ i = 3%nat) by lia. destruct Hi' as [->| ->].
    + rewrite E2, Ev2. exact Hlt.
    + rewrite E3, Rmult_0_r. exact P4.
Qed.

(** ** The factorisation of the matrix of power sums *)
Lemma elim_ext n k V W : (forall i j, (i < n)%nat -> (j < n)%nat -> V i j = W i j) -> (k < n)%nat -> forall i j, (i < n)%nat -> (j < n)%nat -> elim k V i j = elim k W i j.
Proof. intros H Hk i j Hi Hj. unfold elim. rewrite !H by assumption. reflexivity. Qed.

Lemma savgol_lu n m : (m <= 2 * n)%nat -> exists avals a f, savgol_matrix n m = Some avals /\ newMatrix avals (m + 1) (m + 1) = Some a /\ luOf a = Some f /\
  lu_ok (m + 1) (gram n) f /\ nth 0 (lu_pivot f) O = O /\ ((1 <= m)%nat -> nth 1 (lu_pivot f) O = 1%nat) /\
  (m = 4%nat -> nth 2 (lu_pivot f) O = 4%nat).
Proof.
  intros Hm. destruct (savgol_matrix_ok n m) as (l & E & L & HA). exists l. unfold newMatrix.
  destruct (Nat.eqb_spec (m + 1) 0); [lia|]. rewrite L, Nat.eqb_refl. cbn [negb]. set (N := (m + 1)%nat) in *. exists {| vals := l; width := N; height := N |}.
  assert (Hdet : det N (gram n) <> 0) by (apply injective_det; intros z Hz; apply (gram_injective n N z); [lia|exact Hz]).
  unfold luOf. cbn [width height vals]. rewrite Nat.eqb_refl. cbn [negb]. unfold factorizeInPlace.
  destruct (rowScales_ok N l L) as (vv & Ev & Lv & Hv).
  { intros i Hi. destruct (row_dec N (fun j => mg N l i j)) as [|Hz]; [assumption|]. exfalso. apply Hdet.
    apply (det_zero_row N _ i Hi). intros j Hj. unfold gram. rewrite <- HA by assumption. auto. }
  rewrite Ev. set (s0 := {| f_vs := l; f_vv := vv; f_imax := 0; f_piv := repeat 0%nat N; f_d := 1 |}).
  destruct (loop_inv (fun k s => lu_inv N (gram n) k s /\ (k = 0%nat -> s = s0) /\
     (k = 1%nat -> f_vv s = vv /\ forall i j, (i < N)%nat -> (j < N)%nat -> mg N (f_vs s) i j = elim 0 (mg N l) i j) /\
     (k = 2%nat -> f_vv s = vv /\ forall i j, (i < N)%nat -> (j < N)%nat -> mg N (f_vs s) i j = elim 1 (elim 0 (mg N l)) i j) /\
     ((1 <= k)%nat -> nth 0 (f_piv s) O = O) /\ ((2 <= k)%nat -> nth 1 (f_piv s) O = 1%nat) /\ ((3 <= k)%nat -> m = 4%nat -> nth 2 (f_piv s) O = 4%nat))
     N (factorStep N) s0) as (s & Es & Hs & _ & _ & _ & P0 & P1 & P2).
  - split; [|split; [reflexivity|repeat split; lia]].
    constructor; subst s0; cbn [f_vs f_vv f_piv f_d]; try assumption; try (intros; lia).
    + apply repeat_length.
    + rewrite Rmult_1_l. apply det_ext. intros i j Hi Hj. unfold gram. rewrite <- HA by assumption. unfold upper. nat_cases; reflexivity.
    + exists (fun i => i). split; [auto|]. split; [intros r Hr; exists r; auto|]. split; [intros c _ _; destruct (Nat.ltb_spec c 0); [lia|reflexivity]|].
      intros i j Hi Hj. cbn [Nat.min sumf]. unfold gram. rewrite <- HA by assumption. unfold upper. nat_cases; cbn [andb]; lra.
  - intros k s Hk (Hs & H0 & H1 & H2 & P0 & P1 & P2). destruct (factorStep_ok N (gram n) k s Hk Hdet Hs) as (s' & Es & Hs'). exists s'. split; [exact Es|].
    split; [exact Hs'|]. split; [lia|]. destruct (factorStep_pivots N k s s' Es) as (Ep & Hkeep).
    assert (Lvs := li_len _ _ _ _ Hs). assert (Lpv := li_lpiv _ _ _ _ Hs). assert (Lvv := li_lvv _ _ _ _ Hs).
    destruct k as [|[|k]].
    + specialize (H0 eq_refl). subst s. assert (Hp0 : pivotSearch N 0 l vv 0 = Some O) by (apply (pivot0 n m); assumption).
      destruct (factorStep_stay N 0 s0 s') as (Q1 & Q2 & Q3); try assumption.
      { subst s0. cbn [f_vs]. rewrite HA by lia. cbn [Nat.add]. assert (0 < psum n 0) by (apply (psum_even_pos n 0); lia). lra. }
      split; [intros _; split; [exact Q2|exact Q3]|]. split; [lia|]. split; [intros _; exact Q1|]. split; lia.
    + destruct (H1 eq_refl) as (Evv & HV). rewrite <- Evv in Ev, Lv.
      destruct (pivot1 n m l (f_vv s) (f_vs s) (f_imax s)) as (Hp1 & Hnz); try assumption; [subst N; lia|].
      destruct (factorStep_stay N 1 s s') as (Q1 & Q2 & Q3); try assumption.
      split; [lia|]. split; [|split; [intros _; rewrite Hkeep by lia; apply P0; lia|split; [intros _; exact Q1|lia]]].
      intros _. split; [congruence|]. intros i j Hi Hj. rewrite Q3 by assumption. apply (elim_ext N 1); assumption.
    + split; [lia|]. split; [lia|]. split; [intros _; rewrite Hkeep by lia; apply P0; lia|]. split; [intros _; rewrite Hkeep by lia; apply P1; lia|].
      intros Hk3 Em. destruct k as [|k].
      * destruct (H2 eq_refl) as (Evv & HV). subst m. change N with 5%nat in *. rewrite <- Evv in Ev, Lv.
        rewrite (pivot2 n l (f_vv s) (f_vs s) (f_imax s)) in Ep; try assumption; [injection Ep as <-; reflexivity|lia].
      * rewrite Hkeep by lia. apply P2; [lia|exact Em].
  - rewrite Es. eexists. split; [exact E|]. split; [reflexivity|]. split; [reflexivity|]. split.
    + destruct Hs as [Ls Lvv Lp _ Hdt Hdiag Hpiv (sg & Hsg & Hsurj & Hid & Hfac)].
      unfold lu_ok. cbn [lu_n lu_vals lu_pivot lu_d]. repeat (split; [assumption||reflexivity|]). split; [|split; [assumption|split; [assumption|]]].
      * rewrite Hdt. f_equal. rewrite det_triangular.
        -- apply prodf_ext. intros i Hi. unfold upper. nat_cases; reflexivity.
        -- intros i j Hi Hji. unfold upper. nat_cases. reflexivity.
      * exists sg. split; [assumption|]. split; [assumption|]. split.
        { intros c Hc Hall. rewrite Hid; [rewrite (proj2 (Nat.ltb_lt c N)) by assumption; reflexivity|assumption|]. intros l0 Hl _. auto. }
        intros i j Hi Hj. rewrite Hfac by assumption. replace (Nat.min N i) with i by lia. reflexivity.
    + cbn [lu_pivot]. split; [apply P0; lia|]. split; [intros; apply P1; lia|]. intros Em. apply P2; [lia|exact Em].
Qed.

(** ** Solving for a unit vector and evaluating the kernel *)
Lemma savgol_eval n m b : length b = (m + 1)%nat -> exists cs,
  (do first <- rd b 0;
   loop (2 * n + 1) (fun t cs =>
    let i64 := INR t - INR n in
    do st <- loop_from 1 (m + 1) (fun mm st =>
      let '(sum, fac) := st in
      let fac' := fac * i64 in
      do bm <- rd b mm; Some (sum + bm * fac', fac')) (first, 1);
    wr cs t (fst st)) (zeros (2 * n + 1))) = Some cs /\ length cs = (2 * n + 1)%nat /\
  forall t, (t < 2 * n + 1)%nat -> nth t cs 0 = sumf (m + 1) (fun j => nth j b 0 * offset n t ^ j).
Proof.
  intros Lb. rewrite (rd_nth b 0 0) by lia.
  match goal with |- context [loop (2 * n + 1) ?B ?S] => destruct (loop_inv (fun k cs => length cs = (2 * n + 1)%nat /\
    forall t, (t < k)%nat -> nth t cs 0 = sumf (m + 1) (fun j => nth j b 0 * offset n t ^ j)) (2 * n + 1) B S) as (cs & E & L & H) end.
  - split; [unfold zeros; apply repeat_length|intros; lia].
  - intros t cs Ht (L & H). cbv zeta. fold (offset n t).
    destruct (loop_from_inv (fun k (st : R * R) => fst st = sumf k (fun j => nth j b 0 * offset n t ^ j) /\ snd st = offset n t ^ (k - 1)) 1 (m + 1)
      (fun mm (st : R * R) => let '(sum, fac) := st in let fac' := fac * offset n t in do bm <- rd b mm; Some (sum + bm * fac', fac')) (nth 0 b 0, 1)) as ([sum fac] & E & E1 & E2).
    + lia.
    + cbn [fst snd sumf pow Nat.sub]. split; ring.
    + intros k [sum fac] Hk (E1 & E2). cbn [fst snd] in *. cbv zeta. rewrite (rd_nth b k 0) by lia. eexists. split; [reflexivity|]. cbn [fst snd sumf].
      replace (S k - 1)%nat with (S (k - 1)) by lia. subst sum fac. split; [|cbn [pow]; ring]. f_equal. f_equal.
      replace k with (S (k - 1)) at 2 by lia. cbn [pow]. ring.
    + cbv zeta in E. rewrite E. cbn [fst snd] in *. destruct (wr_some cs t sum 0) as (cs' & E' & L' & H'); [lia|].
      exists cs'. split; [exact E'|]. split; [lia|]. intros u Hu. rewrite H'. destruct (Nat.eqb_spec u t) as [->|]; [exact E1|apply H; lia].
  - exists cs. split; [exact E|]. split; [exact L|exact H].
Qed.

(** The kernel computed from right-hand side e_ld has the moments of e_r when the scattered vector is e_r in the permuted order. *)
Lemma savgol_moments n m ld r : (m <= 2 * n)%nat -> (ld <= m)%nat ->
  (forall piv, length piv = (m + 1)%nat -> (forall l, (l < m + 1)%nat -> (l <= nth l piv O < m + 1)%nat) -> nth 0 piv O = O ->
     ((1 <= m)%nat -> nth 1 piv O = 1%nat) -> (m = 4%nat -> nth 2 piv O = 4%nat) ->
     nth ld piv O = r /\ (forall l, (l < ld)%nat -> nth l piv O = l) /\ (forall l, (ld < l < m + 1)%nat -> nth l piv O <> ld) /\ nth r piv O = r) ->
  exists cs, savgol n m ld = Some cs /\ length cs = (2 * n + 1)%nat /\
    forall p, (p <= m)%nat -> sumf (2 * n + 1) (fun t => nth t cs 0 * offset n t ^ p) = delta p r.
Proof.
  intros Hm Hld Hpivs. destruct (savgol_lu n m Hm) as (l & a & f & E1 & E2 & E3 & Hf & P0 & P1 & P2).
  pose proof Hf as (Hn & L & Lp & _ & Hd & Hp & sg & Hsg & Hsurj & Hid & Hfac).
  destruct (Hpivs (lu_pivot f) Lp Hp P0 P1 P2) as (Er & Hlow & Hne & Hrr).
  unfold savgol. rewrite E1, E2, E3.
  destruct (wr_some (zeros (m + 1)) ld 1 0) as (b0 & Eb & Lb & Hb); [unfold zeros; rewrite repeat_length; lia|]. rewrite Eb.
  assert (Lz : length (zeros (m + 1)) = (m + 1)%nat) by (unfold zeros; apply repeat_length).
  assert (Hb0 : forall i, nth i b0 0 = if (i =? ld)%nat then 1 else 0).
  { intros i. rewrite Hb. destruct (Nat.eqb_spec i ld); [reflexivity|]. unfold zeros. apply nth_repeat. }
  (* the scattered right-hand side is e_ld again *)
  assert (Hsc : exists c, scatter (m + 1) (lu_pivot f) b0 b0 = Some c /\ length c = (m + 1)%nat /\ forall i, (i < m + 1)%nat -> nth i c 0 = if (i =? ld)%nat then 1 else 0).
  { unfold scatter.
    match goal with |- context [loop (m + 1) ?B b0] => destruct (loop_inv (fun k ys => length ys = (m + 1)%nat /\
      (forall i, (i < m + 1)%nat -> i <> ld -> i <> nth ld (lu_pivot f) O -> nth i ys 0 = 0) /\
      ((k <= ld \/ ld < nth ld (lu_pivot f) O)%nat -> nth ld ys 0 = 1) /\ ((ld < k)%nat -> nth ld (lu_pivot f) O = ld -> nth ld ys 0 = 1) /\
      ((ld < nth ld (lu_pivot f) O)%nat -> (nth ld (lu_pivot f) O < k \/ k <= ld)%nat -> nth (nth ld (lu_pivot f) O) ys 0 = 0)) (m + 1) B b0) as (c & Ec & Lc & H1 & H2 & H3 & H4) end.
    - split; [lia|]. split; [intros i Hi Hne1 _; rewrite Hb0; destruct (Nat.eqb_spec i ld); [lia|reflexivity]|].
      split; [intros _; rewrite Hb0, Nat.eqb_refl; reflexivity|]. split; [lia|]. intros Hl _. rewrite Hb0. destruct (Nat.eqb_spec (nth ld (lu_pivot f) O) ld); [lia|reflexivity].
    - intros k ys Hk (Ly & H1 & H2 & H3 & H4). rewrite (rd_nth (lu_pivot f) k O) by lia. rewrite (rd_nth b0 k 0) by lia.
      pose proof (Hp k Hk) as Hpk. pose proof (Hp ld ltac:(lia)) as Hpld.
      destruct (wr_some ys (nth k (lu_pivot f) O) (nth k b0 0) 0) as (ys' & Ew & Ly' & Hw); [lia|]. exists ys'. split; [exact Ew|]. split; [lia|].
      rewrite Hb0 in Hw.
      assert (Hlowk : (k < ld)%nat -> nth k (lu_pivot f) O = k) by (intros; apply Hlow; lia).
      assert (Hhik : (ld < k)%nat -> nth k (lu_pivot f) O <> ld) by (intros; apply Hne; lia).
      split; [|split; [|split]].
      + intros i Hi Hi1 Hi2. rewrite Hw. destruct (Nat.eqb_spec i (nth k (lu_pivot f) O)); [|apply H1; assumption].
        destruct (Nat.eqb_spec k ld); [subst; congruence|reflexivity].
      + intros Hc. rewrite Hw. destruct (Nat.eqb_spec ld (nth k (lu_pivot f) O)) as [e|].
        * destruct (Nat.eqb_spec k ld) as [|Hkl]; [reflexivity|]. exfalso. destruct (Nat.lt_ge_cases k ld); [rewrite Hlowk in e by lia; lia|]. apply Hhik; [lia|congruence].
        * apply H2. lia.
      + intros Hc Hs. rewrite Hw. destruct (Nat.eqb_spec ld (nth k (lu_pivot f) O)) as [e|Hx].
        * destruct (Nat.eqb_spec k ld) as [|Hkl]; [reflexivity|]. exfalso. apply Hhik; [lia|congruence].
        * destruct (Nat.eq_dec k ld) as [->|]; [congruence|]. apply H3; [lia|exact Hs].
      + intros Hs Hc. rewrite Hw. destruct (Nat.eqb_spec (nth ld (lu_pivot f) O) (nth k (lu_pivot f) O)) as [e|Hx].
        * destruct (Nat.eqb_spec k ld) as [->|]; [lia|reflexivity].
        * apply H4; [exact Hs|]. destruct (Nat.eq_dec k (nth ld (lu_pivot f) O)) as [->|]; [|lia]. exfalso.
          rewrite Er in Hx. congruence.
    - exists c. split; [exact Ec|]. split; [exact Lc|]. intros i Hi. destruct (Nat.eqb_spec i ld) as [->|Hi1].
      + destruct (Nat.eq_dec (nth ld (lu_pivot f) O) ld); [apply H3; [lia|assumption]|]. apply H2. pose proof (Hp ld ltac:(lia)). lia.
      + destruct (Nat.eq_dec i (nth ld (lu_pivot f) O)) as [->|]; [|apply H1; assumption]. apply H4; [pose proof (Hp ld ltac:(lia)); lia|]. pose proof (Hp ld ltac:(lia)). lia. }
  destruct Hsc as (c & Ec & Lc & Hc).
  destruct (luSolveVector_gen (m + 1) (gram n) f b0 b0 c sg Hf Hfac) as (b & Es & Lbb & Hsol); try (assumption || lia).
  rewrite Es. destruct (savgol_eval n m b Lbb) as (cs & Ecs & Lcs & Hcs). exists cs. split; [exact Ecs|]. split; [exact Lcs|].
  assert (Esg : sg ld = r) by (rewrite Hid by (try assumption; lia); exact Er).
  assert (Hinj : forall i, (i < m + 1)%nat -> sg i = r -> i = ld).
  { intros i Hi Ei. destruct (Nat.eq_dec i ld) as [|Hne']; [assumption|]. exfalso.
    assert (Hdup : NoDup (map sg (seq 0 (m + 1)))).
    { apply (NoDup_incl_NoDup (l := seq 0 (m + 1))); [apply seq_NoDup|rewrite map_length, seq_length; lia|].
      intros x Hx. apply in_seq in Hx. destruct (Hsurj x ltac:(lia)) as (y & Hy & <-). apply in_map. apply in_seq. lia. }
    assert (Hij : forall i j, (i < m + 1)%nat -> (j < m + 1)%nat -> sg i = sg j -> i = j).
    { intros x y Hx Hy Exy. rewrite NoDup_nth with (d := sg O) in Hdup. apply Hdup; rewrite ?map_length, ?seq_length; try assumption.
      rewrite !map_nth, !seq_nth by assumption. exact Exy. }
    apply Hne'. apply Hij; [exact Hi|lia|congruence]. }
  intros p Hpm. destruct (Hsurj p ltac:(lia)) as (i & Hi & Ei).
  transitivity (sumf (m + 1) (fun j => gram n p j * vec b j)).
  - rewrite gram_form. apply sumf_ext. intros t Ht. rewrite Hcs by exact Ht. unfold vec. ring.
  - rewrite <- Ei, Hsol by exact Hi. unfold vec. rewrite Hc by exact Hi. unfold delta. rewrite Ei.
    destruct (Nat.eqb_spec i ld) as [->|Hil], (Nat.eqb_spec p r) as [->|Hpr]; try reflexivity; exfalso; [congruence|]. apply Hil. apply Hinj; assumption.
Qed.

(** Smoothing kernels and first derivatives: the moments are those asked for, for every width and order. *)
Lemma savgol_good n m ld : (m <= 2 * n)%nat -> (ld <= m)%nat -> (ld <= 1 \/ m = 2)%nat ->
  exists cs, savgol n m ld = Some cs /\ length cs = (2 * n + 1)%nat /\
    forall p, (p <= m)%nat -> sumf (2 * n + 1) (fun t => nth t cs 0 * offset n t ^ p) = delta p ld.
Proof.
  intros Hm Hld H1. apply (savgol_moments n m ld ld Hm Hld). intros piv Lp Hp P0 P1 _.
  assert (Hlow : forall l, (l <= ld)%nat -> nth l piv O = l).
  { intros [|[|l]] Hl; [exact P0|apply P1; lia|]. assert (Hl2 : (m = 2 /\ l = 0)%nat) by lia. destruct Hl2 as (-> & ->). specialize (Hp 2%nat ltac:(lia)). lia. }
  assert (Eld : nth ld piv O = ld) by (apply Hlow; lia).
  split; [exact Eld|]. split; [|split; [|exact Eld]].
  - intros l Hl. apply Hlow. lia.
  - intros l Hl. specialize (Hp l ltac:(lia)). lia.
Qed.

(** Second derivatives of quartics: the kernel has the moments of the fourth coefficient. *)
Lemma savgol_wrong n : (2 <= n)%nat ->
  exists cs, savgol n 4 2 = Some cs /\ length cs = (2 * n + 1)%nat /\
    forall p, (p <= 4)%nat -> sumf (2 * n + 1) (fun t => nth t cs 0 * offset n t ^ p) = delta p 4.
Proof.
  intros Hn. apply (savgol_moments n 4 2 4); [lia|lia|]. intros piv Lp Hp P0 P1 P2. split; [apply P2; reflexivity|]. split; [|split].
  - intros [|[|l]] Hl; [exact P0|apply P1; lia|lia].
  - intros l Hl. specialize (Hp l ltac:(lia)). lia.
  - specialize (Hp 4%nat ltac:(lia)). lia.
Qed.

(** ** Shifted polynomials *)
Fixpoint padd (p q : list R) : list R := match p, q with [], _ => q | _, [] => p | a :: p', b :: q' => (a + b) :: padd p' q' end.
Fixpoint pshift (p : list R) (x : R) : list R := match p with [] => [] | c :: p' => padd (c :: pshift p' x) (map (Rmult x) (pshift p' x)) end.

Lemma padd_eval p q x : peval (padd p q) x = peval p x + peval q x.
Proof. revert q. induction p as [|a p IH]; intros [|b q]; cbn [padd peval]; try ring. rewrite IH. ring. Qed.
Lemma pscale_eval c p x : peval (map (Rmult c) p) x = c * peval p x.
Proof. induction p as [|a p IH]; cbn [map peval]; [ring|]. rewrite IH. ring. Qed.
Lemma padd_length p q : length (padd p q) = Nat.max (length p) (length q).
Proof. revert q. induction p as [|a p IH]; intros [|b q]; cbn [padd length]; try lia. rewrite IH. lia. Qed.
Lemma padd_nth p q i : nth i (padd p q) 0 = nth i p 0 + nth i q 0.
Proof. revert q i. induction p as [|a p IH]; intros [|b q] [|i]; cbn [padd nth]; try ring. apply IH. Qed.
Lemma pscale_nth c p i : nth i (map (Rmult c) p) 0 = c * nth i p 0.
Proof. revert i. induction p as [|a p IH]; intros [|i]; cbn [map nth]; try ring. apply IH. Qed.

Lemma pshift_eval p x h : peval (pshift p x) h = peval p (x + h).
Proof.
  induction p as [|c p IH]; cbn [pshift]; [reflexivity|]. rewrite padd_eval, pscale_eval. cbn [peval]. rewrite IH. ring.
Qed.
Lemma pshift_length p x : length (pshift p x) = length p.
Proof. induction p as [|c p IH]; cbn [pshift]; [reflexivity|]. rewrite padd_length, map_length. cbn [length]. rewrite IH. lia. Qed.
Lemma pshift_0 p x : nth 0 (pshift p x) 0 = peval p x.
Proof. induction p as [|c p IH]; cbn [pshift]; [reflexivity|]. rewrite padd_nth, pscale_nth. cbn [nth peval]. rewrite IH. ring. Qed.

Lemma pderiv_from_S k p x : peval (pderiv_from (S k) p) x = peval (pderiv_from k p) x + peval p x.
Proof. revert k. induction p as [|c p IH]; intros k; cbn [pderiv_from peval]; [ring|]. rewrite IH, S_INR. ring. Qed.
Lemma pderiv_cons c p x : peval (pderiv (c :: p)) x = peval p x + x * peval (pderiv p) x.
Proof.
  cbn [pderiv]. rewrite pderiv_from_S. destruct p as [|d p]; cbn [pderiv_from pderiv peval]; [ring|]. cbn [INR]. ring.
Qed.
Lemma pshift_1 p x : nth 1 (pshift p x) 0 = peval (pderiv p) x.
Proof.
  induction p as [|c p IH]; cbn [pshift]; [reflexivity|]. rewrite padd_nth, pscale_nth, pderiv_cons. cbn [nth]. rewrite IH, pshift_0. ring.
Qed.
Lemma peval_ext p q x : (forall i, nth i p 0 = nth i q 0) -> peval p x = peval q x.
Proof.
  revert q. induction p as [|a p IH]; intros q H.
  - revert H. induction q as [|b q IHq]; intros H; [reflexivity|]. cbn [peval]. rewrite <- IHq by (intros i; specialize (H (S i)); cbn [nth] in *; rewrite <- H; destruct i; reflexivity).
    specialize (H O). cbn [nth] in H. rewrite <- H. cbn [peval]. ring.
  - destruct q as [|b q].
    + cbn [peval]. rewrite (IH []) by (intros i; specialize (H (S i)); cbn [nth] in *; rewrite H; destruct i; reflexivity).
      specialize (H O). cbn [nth] in H. rewrite H. cbn [peval]. ring.
    + cbn [peval]. rewrite (IH q) by (intros i; exact (H (S i))). specialize (H O). cbn [nth] in H. rewrite H. reflexivity.
Qed.
Lemma pderiv_nth p i : nth i (pderiv p) 0 = INR (S i) * nth (S i) p 0.
Proof.
  assert (G : forall q k i, nth i (pderiv_from k q) 0 = INR (k + i) * nth i q 0).
  { induction q as [|c q IH]; intros k [|j]; cbn [pderiv_from nth]; try ring; [rewrite Nat.add_0_r; reflexivity|]. rewrite IH. do 2 f_equal. lia. }
  destruct p as [|c p]; cbn [pderiv]; [destruct i; cbn [nth]; ring|]. rewrite G. reflexivity.
Qed.
Lemma pderiv_padd p q x : peval (pderiv (padd p q)) x = peval (pderiv p) x + peval (pderiv q) x.
Proof. rewrite <- padd_eval. apply peval_ext. intros i. rewrite padd_nth, !pderiv_nth, padd_nth. ring. Qed.
Lemma pshift_2 p x : 2 * nth 2 (pshift p x) 0 = peval (pderiv (pderiv p)) x.
Proof.
  induction p as [|c p IH]; cbn [pshift]; [cbn; ring|]. rewrite padd_nth, pscale_nth. cbn [nth]. rewrite pshift_1.
  transitivity (peval (pderiv (padd p (0 :: pderiv p))) x).
  - rewrite pderiv_padd, pderiv_cons, <- IH. ring.
  - apply peval_ext. intros i. rewrite !pderiv_nth, padd_nth. f_equal. cbn [nth]. rewrite pderiv_nth, (S_INR (S i)). ring.
Qed.

Lemma weighted_poly n m ld cs p x0 dx N i b : length cs = (2 * n + 1)%nat -> (forall q, (q <= m)%nat -> sumf (2 * n + 1) (fun t => nth t cs 0 * offset n t ^ q) = delta q ld) ->
  (ld <= m)%nat -> (length p <= m + 1)%nat -> (n <= i)%nat -> (i + n < N)%nat ->
  weighted (mkKernel cs n) (continued b (samples p x0 dx N)) i = dx ^ ld * nth ld (pshift p (x0 + INR i * dx)) 0.
Proof.
  intros Lc Hmom Hld Hp Hi1 Hi2. unfold weighted. cbn [k_cs k_center]. rewrite Lc. set (x := x0 + INR i * dx).
  rewrite (sumf_ext _ _ (fun t => sumf (length p) (fun q => nth q (pshift p x) 0 * dx ^ q * (nth t cs 0 * offset n t ^ q)))).
  - rewrite sumf_exchange. rewrite (sumf_ext _ _ (fun q => nth q (pshift p x) 0 * dx ^ q * delta q ld)).
    + destruct (Nat.lt_ge_cases ld (length p)) as [Hl|Hl].
      * rewrite (sumf_single _ ld); [unfold delta; rewrite Nat.eqb_refl; ring|exact Hl|]. intros q Hq Hne. unfold delta. destruct (Nat.eqb_spec q ld); [lia|ring].
      * rewrite (nth_overflow (pshift p x)) by (rewrite pshift_length; exact Hl). rewrite Rmult_0_r. apply sumf_0. intros q Hq. unfold delta. destruct (Nat.eqb_spec q ld); [lia|ring].
    + intros q Hq. rewrite sumf_scal, Hmom by lia. reflexivity.
  - intros t Ht. assert (E : continued b (samples p x0 dx N) (Z.of_nat i + Z.of_nat t - Z.of_nat n) = peval (pshift p x) (offset n t * dx)).
    { unfold continued. cbv zeta. rewrite samples_length. destruct (Z.leb_spec 0 (Z.of_nat i + Z.of_nat t - Z.of_nat n)); [|lia].
      destruct (Z.ltb_spec (Z.of_nat i + Z.of_nat t - Z.of_nat n) (Z.of_nat N)); [|lia]. cbn [andb]. rewrite samples_nth by lia. rewrite pshift_eval. f_equal.
      subst x. unfold offset. replace (Z.to_nat (Z.of_nat i + Z.of_nat t - Z.of_nat n)) with (i + t - n)%nat by lia. rewrite minus_INR, plus_INR by lia. ring. }
    rewrite E, peval_sum, pshift_length, <- sumf_scal. apply sumf_ext. intros q _. rewrite Rpow_mult_distr. ring.
Qed.
