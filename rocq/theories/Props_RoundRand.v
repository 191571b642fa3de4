(** * C209 and C210: rounding in the random draws, and in the angular bins of the filter *)
From Coq Require Import Reals Lra Lia List Bool ZArith NArith Psatz.
From Flocq Require Import Core.
From Verif Require Import RealBase LoopBase LoopFacts InterpProofs KdeProofs2 RandModel RandSpec RandProofs RoundModel RoundIndexModel NormVecSpec Props_Round Props_RoundRing Props_RoundIndex Props_NormVec RoundRandModel.
Import List ListNotations.
Local Open Scope R_scope.

(** ** Specification *)

(** The share of the range that a draw keeps clear of its upper end. *)
Definition clearance : R := / 2 ^ 33.

(** ieee (Props_Round.v) rounds to the nearest multiple of a power of two with a 53-bit significand, ties to even. A float64 is a value that this rounding keeps. *)
Definition is_float64 (x : R) : Prop := r64 ieee x = x.

(** A share [a] of a turn lies in sector [k] of [bins], up to 1/256 of a sector. *)
Definition near_sector (bins k : nat) (a : R) : Prop := (INR k - / 2 ^ 8) / INR bins <= a <= (INR k + 1 + / 2 ^ 8) / INR bins.

(** The radii whose sector is j, in their order. *)
Definition radii_of (sectors : list nat) (rs : list R) (j : nat) : list R := map snd (filter (fun p => Nat.eqb (fst p) j) (combine sectors rs)).

(** ** Proofs *)
Lemma value_parts g : xs_valid g -> exists j, (0 <= j <= 4294967295)%Z /\ xs_value g = IZR j / 4294967295 /\ Z.of_N (maxUint32 - xs_w g) = j.
Proof.
  intros (Hw & _). change (2 ^ 32)%N with 4294967296%N in Hw. exists (Z.of_N (maxUint32 - xs_w g)). split; [unfold maxUint32; change (2 ^ 32 - 1)%N with 4294967295%N; lia|]. split; reflexivity.
Qed.

Section Acc.
Variable M : machine.
Hypothesis HM : accurate M.
Hypothesis H1 : r64 M 1 = 1.

Lemma value_round g : xs_valid g -> f_value M g = r64 M (xs_value g).
Proof. reflexivity. Qed.

Lemma value_one g : xs_valid g -> (f_value M g = 1 <-> xs_value g = 1).
Proof.
  intros Hg. rewrite value_round by exact Hg. split; intros E; [|rewrite E; exact H1].
  destruct (value_parts g Hg) as (j & Hj & Ej & _). rewrite Ej in *. pose proof v_val as Hv. assert (P : 0 <= IZR j) by (apply (IZR_le 0); lia).
  destruct (Z.eq_dec j 4294967295) as [->|Hn]; [field|]. exfalso. assert (IZR j <= 4294967294) by (apply IZR_le; lia).
  assert (B : IZR j / 4294967295 <= 4294967294 / 4294967295) by lra. pose proof (r64_rel M HM (IZR j / 4294967295) ltac:(lra)) as [_ R]. rewrite E in R. nra.
Qed.

Lemma value_bounds g : xs_valid g -> xs_value g <> 1 -> 0 <= f_value M g <= 1 - / 4294967295 + v /\ Rabs (f_value M g - xs_value g) <= v.
Proof.
  intros Hg Hn. rewrite value_round by exact Hg. destruct (value_parts g Hg) as (j & Hj & Ej & _). rewrite Ej in *. pose proof v_val as Hv. assert (P : 0 <= IZR j) by (apply (IZR_le 0); lia).
  assert (Hne : j <> 4294967295%Z) by (intros ->; apply Hn; field). assert (IZR j <= 4294967294) by (apply IZR_le; lia).
  assert (B : IZR j / 4294967295 <= 1 - / 4294967295) by lra. pose proof (r64_rel M HM (IZR j / 4294967295) ltac:(lra)) as [R0 R].
  pose proof (r64_abs M HM (IZR j / 4294967295) 1 ltac:(apply Rabs_le; lra)) as E. rewrite Rmult_1_r in E. split; [|exact E]. apply Rabs_le_inv in E. split; [nra|lra].
Qed.

Lemma nextF_same fuel : forall g, xs_good g -> match xs_nextF fuel g with
  | Some (e, g') => f_nextF M fuel g = Some (f_value M g', g') /\ e = xs_value g' /\ xs_good g' /\ e <> 1
  | None => f_nextF M fuel g = None end.
Proof.
  induction fuel as [|fuel IH]; intros g Hg; [reflexivity|]. cbn [xs_nextF f_nextF]. pose proof (xs_step_good g Hg) as G'. set (g' := xs_step g) in *.
  destruct (Reqb (xs_value g') 1) eqn:E.
  - apply Reqb_true in E. replace (Reqb (f_value M g') 1) with true. { exact (IH g' G'). }
    symmetry. apply value_one in E; [|exact (proj1 G')]. rewrite E. unfold Reqb. destruct (Req_EM_T 1 1); [reflexivity|congruence].
  - apply Reqb_false in E. replace (Reqb (f_value M g') 1) with false. { split; [reflexivity|]. split; [reflexivity|]. split; [exact G'|exact E]. }
    symmetry. unfold Reqb. destruct (Req_EM_T (f_value M g') 1) as [E'|]; [|reflexivity]. apply value_one in E'; [contradiction|exact (proj1 G')].
Qed.

Lemma f_next_ok g : xs_good g -> exists e f g', xs_next g = Some (e, g') /\ f_next M g = Some (f, g') /\ xs_good g' /\ 0 <= f <= 1 - / 4294967295 + v /\ Rabs (f - e) <= v /\ f = r64 M e.
Proof.
  intros Hg. destruct (xs_next_ok g Hg) as (e & g' & En & _ & _). pose proof (nextF_same 4 g Hg) as Hs. unfold xs_next in En. rewrite En in Hs. destruct Hs as (E & -> & G & Hne).
  exists (xs_value g'), (f_value M g'), g'. split; [exact En|]. split; [exact E|]. split; [exact G|]. pose proof (value_bounds g' (proj1 G) Hne) as (B1 & B2). split; [exact B1|]. split; [exact B2|].
  apply value_round. exact (proj1 G).
Qed.

Lemma f_reach seed g : reachable (f_next M) (xs_init seed) g -> xs_good g.
Proof.
  intros (n & vs & E). assert (Hn : forall h, xs_good h -> exists x h', f_next M h = Some (x, h') /\ xs_good h' /\ unit_interval x).
  { intros h Hh. destruct (f_next_ok h Hh) as (e & f & g' & _ & En & G & B & _). exists f, g'. split; [exact En|]. split; [exact G|]. pose proof v_val. unfold unit_interval. lra. }
  destruct (draws_good xs_good (f_next M) Hn n (xs_init seed) (xs_init_ok seed)) as (vs' & g1 & E' & Hg & _). rewrite E in E'. now injection E' as <- <-.
Qed.

(** A number f low of the upper end, scaled to a range. *)
Lemma scaled (low high f D : R) : 0 < high - low -> 0 <= f <= 1 - / 4294967295 + v -> (high - low) * (1 - v) <= D <= (high - low) * (1 + v) ->
  0 <= r64 M (f * D) <= (high - low) * (1 - clearance - / 2 ^ 36) /\ Rabs (r64 M (f * D) - f * (high - low)) <= / 2 ^ 50 * (high - low).
Proof.
  intros Hw Hf HD. pose proof v_val as Hv. remember (high - low) as w eqn:Ew. clear Ew. assert (PD : 0 <= D) by nra. assert (PfD : 0 <= f * D) by (apply Rmult_le_pos; tauto || lra).
  pose proof (r64_rel M HM _ PfD) as R. assert (D1 : Rabs (f * D - f * w) <= v * w). { replace (f * D - f * w) with (f * (D - w)) by ring. rewrite Rabs_mult, (Rabs_pos_eq f) by lra.
    assert (Rabs (D - w) <= v * w) by (apply Rabs_le; lra). pose proof (Rabs_pos (D - w)). nra. }
  assert (V : v * w <= w) by nra. apply Rabs_le_inv in D1. assert (Fw : 0 <= f * w <= (1 - / 4294967295 + v) * w) by (split; [apply Rmult_le_pos; lra|apply Rmult_le_compat_r; lra]).
  assert (PvfD : 0 <= v * (f * D) <= v * (2 * w)). { split; [apply Rmult_le_pos; lra|]. apply Rmult_le_compat_l; [lra|]. nra. }
  assert (Hvw : 0 <= v * w <= / 2 ^ 52 * w) by (unfold v; split; [apply Rmult_le_pos; lra|lra]). remember (r64 M (f * D)) as q eqn:Eq. clear Eq. split.
  - split; [nra|]. unfold clearance. replace (w * (1 - / 2 ^ 33 - / 2 ^ 36)) with (w - (/ 2 ^ 33 + / 2 ^ 36) * w) by ring.
    assert (q <= (1 - / 4294967295 + v) * w + v * w + 2 * (v * w)) by lra. replace ((1 - / 4294967295 + v) * w) with (w - / 4294967295 * w + v * w) in H by ring.
    assert ((/ 2 ^ 33 + / 2 ^ 36 + 4 * / 2 ^ 52) * w <= / 4294967295 * w) by (apply Rmult_le_compat_r; lra). lra.
  - apply Rabs_le. assert (4 * / 2 ^ 52 * w = / 2 ^ 50 * w) by (f_equal; field). lra.
Qed.
End Acc.

Lemma ieee_int z : (Z.abs z <= 2 ^ 53)%Z -> r64 ieee (IZR z) = IZR z.
Proof. intros H. apply (ieee_exact _ z 0); [cbn; lra|exact H]. Qed.
Lemma ieee_one : r64 ieee 1 = 1. Proof. apply (ieee_int 1). cbn. lia. Qed.
Lemma ieee_mono x y : x <= y -> r64 ieee x <= r64 ieee y.
Proof. intros H. cbn [r64 ieee]. apply round_le; [apply FLX_exp_valid; reflexivity|apply valid_rnd_N|exact H]. Qed.

(** The sum of a number and a scaled draw, rounded. *)
Lemma shifted low high f : 0 < high - low -> is_float64 low -> Rabs low <= 2 ^ 17 * (high - low) -> 0 <= f <= 1 - / 4294967295 + v ->
  forall D, (high - low) * (1 - v) <= D <= (high - low) * (1 + v) ->
  let x := r64 ieee (r64 ieee (f * D) + low) in low <= x <= high - / 2 ^ 34 * (high - low) /\ Rabs (x - (low + f * (high - low))) <= / 2 ^ 34 * (high - low).
Proof.
  intros Hw Hl Hb Hf D HD. cbv zeta. pose proof v_val as Hv. destruct (scaled ieee ieee_accurate low high f D Hw Hf HD) as ((P0 & P1) & P2).
  set (p := r64 ieee (f * D)) in *. clearbody p. assert (Hlow : low <= r64 ieee (p + low)). { apply Rle_trans with (r64 ieee low); [right; symmetry; exact Hl|]. apply ieee_mono. lra. }
  assert (B : Rabs (p + low) <= (2 ^ 17 + 1) * (high - low)). { eapply Rle_trans; [apply Rabs_triang|]. rewrite (Rabs_pos_eq p) by exact P0. unfold clearance in P1. nra. }
  pose proof (r64_abs ieee ieee_accurate _ _ B) as E. set (x := r64 ieee (p + low)) in *. clearbody x. unfold v in E. unfold clearance in P1. apply Rabs_le_inv in E. apply Rabs_le_inv in P2.
  remember (high - low) as w eqn:Ew. assert (Eh : high = low + w) by lra. subst high. clear Ew.
  assert (Ev : / 2 ^ 52 * ((2 ^ 17 + 1) * w) <= / 2 ^ 34 * w - / 2 ^ 50 * w). { replace (/ 2 ^ 52 * ((2 ^ 17 + 1) * w)) with ((/ 2 ^ 52 * (2 ^ 17 + 1)) * w) by ring. rewrite <- Rmult_minus_distr_r. apply Rmult_le_compat_r; lra. }
  assert (Ec : w * (1 - / 2 ^ 33 - / 2 ^ 36) = w - 2 * (/ 2 ^ 34 * w) - / 2 ^ 36 * w) by field. assert (Pw : 0 <= / 2 ^ 36 * w) by (apply Rmult_le_pos; lra).
  assert (Pw2 : 0 <= / 2 ^ 50 * w) by (apply Rmult_le_pos; lra). split; [split; [exact Hlow|]|apply Rabs_le]; lra.
Qed.

(** ** C209 *)

(** A draw of the xorshift generator, for every seed and after any number of draws: the retry loop ends, the draw stays clear of 1, it is the draw of exact arithmetic
    to one unit in the last place, and the generator moves on exactly as in exact arithmetic. *)
Theorem C209_next : forall M seed g, accurate M -> r64 M 1 = 1 -> reachable (f_next M) (xs_init seed) g ->
  exists e f g', f_next M g = Some (f, g') /\ xs_next g = Some (e, g') /\ 0 <= f <= 1 - clearance /\ Rabs (f - e) <= / 2 ^ 52 /\ reachable (f_next M) (xs_init seed) g'.
Proof.
  intros M seed g HM H1 Hr. pose proof (f_reach M HM H1 seed g Hr) as Hg. destruct (f_next_ok M HM H1 g Hg) as (e & f & g' & E1 & E2 & _ & B & A & _).
  exists e, f, g'. split; [exact E2|]. split; [exact E1|]. split. { unfold clearance, v in *. lra. } split; [exact A|].
  destruct Hr as (n & vs & E). exists (n + 1)%nat, (vs ++ [f]). apply (draws_app _ _ _ _ _ _ _ _ E). cbn [draws]. now rewrite E2.
Qed.
Print Assumptions C209_next.

(** Uniform(low, high) stays in [low, high), clear of high, and is within 2^-34 of the width of the exact number, as long as the range is not too narrow for where it lies. *)
Theorem C209_uniform_partial : forall seed g low high, reachable (f_next ieee) (xs_init seed) g -> low < high -> is_float64 low -> Rabs low <= 2 ^ 17 * (high - low) ->
  exists e x g', f_uniform ieee low high g = Some (x, g') /\ xs_next g = Some (e, g') /\
    low <= x <= high - / 2 ^ 34 * (high - low) /\ Rabs (x - (low + e * (high - low))) <= / 2 ^ 33 * (high - low).
Proof.
  intros seed g low high Hr Hlt Hl Hb. pose proof v_val as Hv. destruct (f_next_ok ieee ieee_accurate ieee_one g (f_reach ieee ieee_accurate ieee_one seed g Hr)) as (e & f & g' & E1 & E2 & _ & B & A & _).
  assert (Hw : 0 < high - low) by lra. unfold f_uniform. destruct (Reqb low 0 && Reqb high 1) eqn:Eq.
  - apply andb_true_iff in Eq. destruct Eq as [Ea Eb]. apply Reqb_true in Ea. apply Reqb_true in Eb. subst low high. exists e, f, g'. split; [exact E2|]. split; [exact E1|].
    replace (1 - 0) with 1 by ring. replace (0 + e * 1) with e by ring. unfold v in *. split; [lra|]. lra.
  - rewrite E2. pose proof (r64_rel ieee ieee_accurate (high - low) ltac:(lra)) as HD. exists e. eexists. exists g'. split; [reflexivity|]. split; [exact E1|].
    destruct (shifted low high f Hw Hl Hb B _ HD) as (S1 & S2). set (x := r64 ieee (r64 ieee (f * r64 ieee (high - low)) + low)) in *. clearbody x. split; [exact S1|].
    apply Rabs_le_inv in S2. apply Rabs_le_inv in A. remember (high - low) as w eqn:Ew. clear Ew.
    assert (Q : Rabs (f * w - e * w) <= v * w). { rewrite <- Rmult_minus_distr_r, Rabs_mult, (Rabs_pos_eq w) by lra. apply Rmult_le_compat_r; [lra|]. apply Rabs_le. exact A. }
    apply Rabs_le_inv in Q. assert (v * w <= / 2 ^ 34 * w) by (apply Rmult_le_compat_r; unfold v; lra). assert (/ 2 ^ 33 * w = 2 * (/ 2 ^ 34 * w)) by field. apply Rabs_le. lra.
Qed.
Print Assumptions C209_uniform_partial.

(** UniformInt(low, high) is one of low, ..., high - 1, under the same condition on where the range lies, and it is the integer part of the exact number up to 2^-33
    of the width. *)
Theorem C209_uniformInt_partial : forall seed g low high, reachable (f_next ieee) (xs_init seed) g -> (low < high)%Z -> (Z.abs low <= 2 ^ 17 * (high - low))%Z -> (Z.abs low <= 2 ^ 53)%Z ->
  exists e i g', f_uniformInt ieee low high g = Some (i, g') /\ xs_next g = Some (e, g') /\
    (low <= i < high)%Z /\ IZR i - / 2 ^ 33 * IZR (high - low) <= IZR low + e * IZR (high - low) <= IZR i + 1 + / 2 ^ 33 * IZR (high - low).
Proof.
  intros seed g low high Hr Hlt Hb Hsm. pose proof v_val as Hv. destruct (f_next_ok ieee ieee_accurate ieee_one g (f_reach ieee ieee_accurate ieee_one seed g Hr)) as (e & f & g' & E1 & E2 & _ & B & A & _).
  unfold f_uniformInt. rewrite E2. exists e. eexists. exists g'. split; [reflexivity|]. split; [exact E1|]. rewrite (ieee_int low) by exact Hsm.
  assert (Hw : 0 < IZR high - IZR low) by (assert (IZR low < IZR high) by (apply IZR_lt; exact Hlt); lra). rewrite minus_IZR.
  assert (Hb' : Rabs (IZR low) <= 2 ^ 17 * (IZR high - IZR low)). { rewrite <- abs_IZR, <- minus_IZR. replace (2 ^ 17) with (IZR (2 ^ 17)) by (cbn; ring). rewrite <- mult_IZR. apply IZR_le. exact Hb. }
  pose proof (r64_rel ieee ieee_accurate (IZR high - IZR low) ltac:(lra)) as HD.
  destruct (shifted (IZR low) (IZR high) f Hw (ieee_int low Hsm) Hb' B _ HD) as (S1 & S2). rewrite (Rmult_comm f) in S1. rewrite (Rmult_comm f (r64 ieee _)) in S2.
  set (x := r64 ieee (r64 ieee (r64 ieee (IZR high - IZR low) * f) + IZR low)) in *. clearbody x. destruct (base_Int_part x) as (P1 & P2).
  assert (Pw : 0 < / 2 ^ 34 * (IZR high - IZR low)) by (apply Rmult_lt_0_compat; lra). split.
  - split. { assert (low < Int_part x + 1)%Z; [|lia]. apply lt_IZR. rewrite plus_IZR. lra. } apply lt_IZR. lra.
  - apply Rabs_le_inv in S2. apply Rabs_le_inv in A. remember (IZR high - IZR low) as w eqn:Ew. clear Ew.
    assert (Q : Rabs (f * w - e * w) <= v * w). { rewrite <- Rmult_minus_distr_r, Rabs_mult, (Rabs_pos_eq w) by lra. apply Rmult_le_compat_r; [lra|]. apply Rabs_le. exact A. }
    apply Rabs_le_inv in Q. assert (v * w <= / 2 ^ 34 * w) by (apply Rmult_le_compat_r; unfold v; lra). assert (/ 2 ^ 33 * w = 2 * (/ 2 ^ 34 * w)) by field. lra.
Qed.
Print Assumptions C209_uniformInt_partial.

Lemma draws_split {S : Type} (next : S -> option (R * S)) m k : forall g vs ws g', draws next (m + k) g = Some (vs ++ ws, g') -> length vs = m ->
  exists g1, draws next m g = Some (vs, g1) /\ draws next k g1 = Some (ws, g').
Proof.
  induction m as [|m IH]; intros g vs ws g' E L.
  - destruct vs; [|discriminate]. exists g. split; [reflexivity|exact E].
  - destruct vs as [|x vs]; [discriminate|]. cbn [plus draws app] in *. destruct (next g) as [[y g1]|]; [|discriminate]. destruct (draws next (m + k) g1) as [[xs g2]|] eqn:Ed; [|discriminate].
    injection E as <- -> <-. injection L as L. destruct (IH g1 vs ws g2 Ed L) as (g3 & A & B). exists g3. rewrite A. split; [reflexivity|exact B].
Qed.

Lemma draws_round n : forall g vs g', xs_good g -> draws xs_next n g = Some (vs, g') -> exists ws, draws (f_next ieee) n g = Some (ws, g') /\ xs_good g'.
Proof.
  induction n as [|n IH]; intros g vs g' Hg E; cbn [draws] in *; [injection E as <- <-; exists []; auto|].
  destruct (f_next_ok ieee ieee_accurate ieee_one g Hg) as (e & f & g1 & E1 & E2 & G & _). rewrite E1 in E. rewrite E2. destruct (draws xs_next n g1) as [[xs g2]|] eqn:Ed; [|discriminate].
  injection E as <- <-. destruct (IH g1 xs g2 G Ed) as (ws & Ew & G2). rewrite Ew. eauto.
Qed.

(** 2^22 + 1 less a quarter of a unit in the last place. *)
Lemma ieee_up t : / 10 <= t * 2 ^ 30 <= 4 / 10 -> r64 ieee (4194305 - t) = 4194305.
Proof.
  intros Ht. assert (Bt : 0 <= t <= 1 / 1000) by lra. cbn [r64 ieee]. unfold round, scaled_mantissa, cexp, F2R. cbn [Fnum Fexp].
  assert (Em : mag radix2 (4194305 - t) = 23%Z :> Z). { apply mag_unique. rewrite Rabs_pos_eq by lra. change (bpow radix2 (23 - 1)) with 4194304. change (bpow radix2 23) with 8388608. lra. }
  rewrite Em. change (FLX_exp 53 23) with (-30)%Z. change (bpow radix2 (- -30)) with 1073741824. replace (Znearest (fun x => negb (Z.even x)) ((4194305 - t) * 1073741824)) with 4503600701112320%Z.
  - change (bpow radix2 (-30)) with (/ 1073741824). lra.
  - symmetry. apply Znearest_imp. apply Rabs_lt. lra.
Qed.

(** Without the condition the upper end is returned: UniformInt(4194304, 4194305) returns 4194305, for every seed, after some number of draws. *)
Theorem C209_uniformInt_refuted : forall seed, exists g g', reachable (f_next ieee) (xs_init seed) g /\ f_uniformInt ieee 4194304 4194305 g = Some (4194305%Z, g').
Proof.
  intros seed. assert (R0 : reachable xs_next (xs_init seed) (xs_init seed)) by (exists O, []; reflexivity). set (w := 4294967294 / 4294967295).
  assert (Gv : grid_value w) by (exists 4294967294%Z; split; [lia|reflexivity]). destruct (C192_every_four seed _ w w w w R0 Gv Gv Gv Gv) as (m & vs & g4 & E & L).
  destruct (draws_split xs_next m 4 _ _ _ _ E L) as (g & Ea & Eb). exists g. destruct (draws_round m _ _ _ (xs_init_ok seed) Ea) as (ws & Er & Hg).
  destruct (f_next_ok ieee ieee_accurate ieee_one g Hg) as (e & f & g' & E1 & E2 & _ & _ & A & _). exists g'. split; [exists m, ws; exact Er|].
  assert (Ee : e = w). { cbn [draws] in Eb. rewrite E1 in Eb. destruct (xs_next g') as [[? ?]|]; [|discriminate]. destruct (xs_next x) as [[? ?]|]; [|discriminate]. destruct (xs_next x0) as [[? ?]|]; [|discriminate]. injection Eb as -> _. reflexivity. }
  subst e. unfold f_uniformInt. rewrite E2. f_equal. f_equal. replace (4194305 - 4194304)%Z with 1%Z by reflexivity. rewrite ieee_one, Rmult_1_l. rewrite (ieee_int 4194304) by (cbn; lia).
  pose proof v_val as Hv. apply Rabs_le_inv in A. unfold w in A.
  assert (F1 : Rabs f <= 1) by (apply Rabs_le; lra). pose proof (r64_abs ieee ieee_accurate f 1 F1) as A2. apply Rabs_le_inv in A2. set (p := r64 ieee f) in *. clearbody p.
  replace (p + 4194304) with (4194305 - (1 - p)) by ring. rewrite ieee_up. { destruct (base_Int_part 4194305) as (Q1 & Q2). apply Z.le_antisymm; [apply le_IZR; exact Q1|]. assert (4194305 < Int_part 4194305 + 1)%Z; [apply lt_IZR; rewrite plus_IZR; lra|lia]. }
  unfold v in *. lra.
Qed.
Print Assumptions C209_uniformInt_refuted.

(** ** C210 *)
Section Sectors.
Variable M : machine.
Hypothesis HM : accurate M.

Lemma phi_close n i : (i < n)%nat -> 0 <= f_phi M n i /\ Rabs (f_phi M n i - INR i / INR n * (2 * PI)) <= 30 * v.
Proof.
  intros Hi. pose proof v_val as Hv. pose proof pi_bounds as Hpi. pose proof (two_pi_close M HM) as ET. apply Rabs_le_inv in ET. unfold f_phi. set (T := two_pi M) in *. clearbody T.
  assert (Hn : 0 < INR n) by (apply lt_0_INR; lia). assert (Pi : 0 <= INR i) by apply pos_INR. assert (Hin : INR i < INR n) by (apply lt_INR; lia).
  assert (A : 0 <= INR i / INR n < 1). { split; [apply Rmult_le_pos; [exact Pi|left; apply Rinv_0_lt_compat; exact Hn]|]. apply (Rmult_lt_reg_r (INR n)); [exact Hn|]. unfold Rdiv. rewrite Rmult_assoc, Rinv_l; lra. }
  set (a := INR i / INR n) in *. clearbody a. pose proof (r64_abs M HM a 1 ltac:(apply Rabs_le; lra)) as E1. pose proof (r64_rel M HM a (proj1 A)) as E1'. set (a1 := r64 M a) in *. clearbody a1.
  apply Rabs_le_inv in E1. assert (Pa1 : 0 <= a1) by nra. assert (PT : 0 <= T <= 8) by lra. assert (PaT : 0 <= a1 * T) by (apply Rmult_le_pos; lra).
  assert (BaT : a1 * T <= 9). { assert (a1 * T <= (1 + v) * T) by (apply Rmult_le_compat_r; lra). nra. }
  pose proof (r64_abs M HM (a1 * T) 9 ltac:(apply Rabs_le; lra)) as E2. pose proof (r64_rel M HM _ PaT) as E2'. set (p := r64 M (a1 * T)) in *. clearbody p. apply Rabs_le_inv in E2. split; [nra|].
  assert (D : Rabs (a1 * T - a * (2 * PI)) <= 16 * v). { replace (a1 * T - a * (2 * PI)) with ((a1 - a) * T + a * (T - 2 * PI)) by ring. eapply Rle_trans; [apply Rabs_triang|]. rewrite !Rabs_mult, (Rabs_pos_eq T), (Rabs_pos_eq a) by lra.
    assert (Rabs (a1 - a) <= v) by (apply Rabs_le; lra). assert (Rabs (T - 2 * PI) <= 7 * v) by (apply Rabs_le; lra). pose proof (Rabs_pos (a1 - a)). pose proof (Rabs_pos (T - 2 * PI)).
    assert (Rabs (a1 - a) * T <= v * 8) by (apply Rmult_le_compat; lra). assert (a * Rabs (T - 2 * PI) <= 1 * (7 * v)) by (apply Rmult_le_compat; lra). lra. }
  apply Rabs_le_inv in D. apply Rabs_le. lra.
Qed.

Lemma theta_index n i bins : (i < n)%nat -> (n <= 2 ^ 30)%nat -> (1 <= bins <= 2 ^ 30)%nat ->
  exists k, f_theta_index M bins (f_phi M n i) = Z.of_nat k /\ (k < bins)%nat /\ near_sector bins k (INR i / INR n).
Proof.
  intros Hi Hn Hb. pose proof v_val as Hv. pose proof pi_bounds as Hpi. pose proof (two_pi_close M HM) as ET. apply Rabs_le_inv in ET. destruct (phi_close n i Hi) as (P0 & PE). unfold f_theta_index.
  assert (HN : 0 < INR n) by (apply lt_0_INR; lia). assert (HB1 : 1 <= INR bins) by (apply (le_INR 1); lia).
  assert (E2 : 2 ^ 30 = INR (2 ^ 30)) by (rewrite pow_INR; reflexivity).
  assert (BN : INR n <= 2 ^ 30) by (rewrite E2; apply le_INR; exact Hn). assert (BB : INR bins <= 2 ^ 30) by (rewrite E2; apply le_INR; exact (proj2 Hb)). clear E2.
  assert (Ein : INR i / INR n <= 1 - / 2 ^ 30). { assert (E : INR i + 1 <= INR n) by (rewrite <- S_INR; apply le_INR; lia). assert (EI : / 2 ^ 30 <= / INR n) by (apply Rinv_le_contravar; assumption).
    assert (INR i / INR n <= 1 - / INR n); [|lra]. apply (Rmult_le_reg_r (INR n)); [exact HN|]. unfold Rdiv. rewrite Rmult_assoc, Rinv_l, Rmult_minus_distr_r, Rinv_l by lra. lra. }
  assert (Pa : 0 <= INR i / INR n) by (apply Rmult_le_pos; [apply pos_INR|left; apply Rinv_0_lt_compat; exact HN]).
  set (a := INR i / INR n) in *. clearbody a. set (th := f_phi M n i) in *. clearbody th. set (T := two_pi M) in *. clearbody T. apply Rabs_le_inv in PE.
  set (B := INR bins) in *. assert (HBpos : 0 < / B) by (apply Rinv_0_lt_compat; lra). assert (PTB : 0 <= T / B) by (apply Rmult_le_pos; lra).
  pose proof (r64_rel M HM _ PTB) as ED. set (d := r64 M (T / B)) in *. clearbody d.
  assert (EBd : T * (1 - v) <= B * d <= T * (1 + v)). { assert (ETB : B * (T / B) = T) by (field; lra). split.
    - apply Rle_trans with (B * (T / B * (1 - v))); [right; rewrite <- ETB at 1; ring|]. apply Rmult_le_compat_l; lra.
    - apply Rle_trans with (B * (T / B * (1 + v))); [|right; rewrite <- ETB at 2; ring]. apply Rmult_le_compat_l; lra. }
  assert (PTv : 0 <= T * v <= 8 * v) by (split; [apply Rmult_le_pos; lra|apply Rmult_le_compat_r; lra]). assert (EBd' : T - 8 * v <= B * d <= T + 8 * v) by lra.
  assert (PBd : 6 - 100 * v <= B * d <= 8) by lra. assert (Pd : 0 < d). { destruct (Rlt_dec 0 d); [assumption|]. assert (B * d <= 0) by nra. lra. }
  assert (A1 : Rabs th <= 2 * B * d). { rewrite Rabs_pos_eq by exact P0. assert (a * (2 * PI) <= 1 * (2 * PI)) by (apply Rmult_le_compat_r; lra). rewrite Rmult_assoc. lra. }
  pose proof (quot_close M HM th d (2 * B) Pd A1) as EQ. apply Rabs_le_inv in EQ. assert (Pq0 : 0 <= th / d) by (apply Rmult_le_pos; [exact P0|left; apply Rinv_0_lt_compat; exact Pd]).
  pose proof (r64_rel M HM _ Pq0) as EQ0. set (q := r64 M (th / d)) in *. clearbody q. assert (Pq : 0 <= q) by (apply Rle_trans with (th / d * (1 - v)); [apply Rmult_le_pos; lra|exact (proj1 EQ0)]).
  assert (EQ' : v * (2 * B * d) <= 16 * v). { replace (v * (2 * B * d)) with ((2 * (B * d)) * v) by ring. apply Rmult_le_compat_r; lra. } assert (QE : - (46 * v) <= q * d - a * (2 * PI) <= 46 * v) by lra.
  assert (Q1 : q * d < B * d). { assert (a * (2 * PI) <= (1 - / 2 ^ 30) * (2 * PI)) by (apply Rmult_le_compat_r; lra).
    assert (2 * PI - 20 * v <= B * d) by lra. assert (70 * v < / 2 ^ 30 * (2 * PI)). { unfold v. lra. } lra. }
  apply Rmult_lt_reg_r in Q1; [|exact Pd]. destruct (Rtrunc_pos q Pq) as (T0 & T1 & T2). set (z := Rtrunc q) in *. clearbody z.
  assert (Hz : (z < Z.of_nat bins)%Z) by (apply lt_IZR; rewrite <- INR_IZR_INZ; fold B; lra). exists (Z.to_nat z). split; [lia|]. split; [lia|].
  unfold near_sector. fold B. assert (EI : INR (Z.to_nat z) = IZR z) by (rewrite INR_IZR_INZ, Z2Nat.id by lia; reflexivity). rewrite EI. set (k := IZR z) in *. clearbody k.
  (* q d / (2 pi) in units of sectors *)
  assert (PB2 : 0 <= 100 * v * B <= / 2 ^ 10). { split; [nra|]. apply Rle_trans with (100 * v * 2 ^ 30); [apply Rmult_le_compat_l; lra|]. unfold v. lra. }
  assert (Ed : Rabs (B * d - 2 * PI) <= 20 * v) by (apply Rabs_le; lra). apply Rabs_le_inv in Ed.
  assert (EqB : Rabs (q * (B * d) - q * (2 * PI)) <= 20 * v * B). { rewrite <- Rmult_minus_distr_l, Rabs_mult, (Rabs_pos_eq q) by exact Pq. assert (Rabs (B * d - 2 * PI) <= 20 * v) by (apply Rabs_le; lra). pose proof (Rabs_pos (B * d - 2 * PI)).
    rewrite (Rmult_comm (20 * v)). apply Rmult_le_compat; lra. }
  apply Rabs_le_inv in EqB. assert (QB : Rabs (q * (2 * PI) - a * B * (2 * PI)) <= / 2 ^ 10). { apply Rabs_le.
    assert (Rabs (B * (q * d) - B * (a * (2 * PI))) <= 46 * v * B). { rewrite <- Rmult_minus_distr_l, Rabs_mult, (Rabs_pos_eq B) by lra. rewrite (Rmult_comm (46 * v)). apply Rmult_le_compat_l; [lra|]. apply Rabs_le. lra. }
    apply Rabs_le_inv in H. replace (q * (B * d)) with (B * (q * d)) in EqB by ring. replace (a * B * (2 * PI)) with (B * (a * (2 * PI))) by ring. lra. }
  assert (QA : Rabs (q - a * B) <= / 2 ^ 10). { apply (Rmult_le_reg_r (2 * PI)); [lra|]. rewrite <- (Rabs_pos_eq (2 * PI)) at 1 by lra. rewrite <- Rabs_mult, Rmult_minus_distr_r. eapply Rle_trans; [exact QB|]. nra. }
  apply Rabs_le_inv in QA. assert (F : a = a * B / B) by (field; lra). rewrite F. unfold Rdiv. split; apply Rmult_le_compat_r; lra.
Qed.
End Sectors.

Lemma radii_snoc sectors rs k r j : length sectors = length rs -> radii_of (sectors ++ [k]) (rs ++ [r]) j = radii_of sectors rs j ++ (if Nat.eqb k j then [r] else []).
Proof.
  intros L. unfold radii_of. assert (E : combine (sectors ++ [k]) (rs ++ [r]) = combine sectors rs ++ [(k, r)]).
  { revert rs L. induction sectors as [|s l IH]; intros [|x rs] L; cbn in *; try lia; [reflexivity|]. f_equal. apply IH. lia. }
  rewrite E, filter_app, map_app. cbn [filter fst]. destruct (Nat.eqb k j); reflexivity.
Qed.

(** The lines [is] of a ring of n lines, with radii [rs], are put into [bins] sectors: there is no panic, every radius is put into exactly one sector, in order, and the
    angle of its line lies in this sector up to 1/256 of its width. *)
Theorem C210_sectors : forall M n bins lines rs, accurate M -> (n <= 2 ^ 30)%nat -> (1 <= bins <= 2 ^ 30)%nat -> length rs = length lines -> Forall (fun i => (i < n)%nat) lines ->
  exists sectors out, f_bin_radii M rs (map (f_phi M n) lines) bins = Some out /\ length sectors = length lines /\ length out = bins /\
    (forall t, (t < length lines)%nat -> (nth t sectors 0 < bins)%nat /\ near_sector bins (nth t sectors 0%nat) (INR (nth t lines 0%nat) / INR n)) /\
    (forall j, (j < bins)%nat -> nth j out [] = radii_of sectors rs j).
Proof.
  intros M n bins lines rs HM Hn Hb HL HF. unfold f_bin_radii. match goal with |- context [loop _ ?b ?s] => set (body := b); set (s0 := s) end.
  destruct (loop_inv (fun k out => length out = bins /\ exists sectors, length sectors = k /\
      (forall t, (t < k)%nat -> (nth t sectors 0 < bins)%nat /\ near_sector bins (nth t sectors 0%nat) (INR (nth t lines 0%nat) / INR n)) /\
      (forall j, (j < bins)%nat -> nth j out [] = radii_of sectors (firstn k rs) j)) (length rs) body s0) as (out & E & L & sectors & L2 & H1 & H2).
  - split; [apply repeat_length|]. exists []. split; [reflexivity|]. split; [intros; lia|]. intros j Hj. unfold s0. rewrite nth_repeat. reflexivity.
  - intros k out Hk (L & sectors & L2 & H1 & H2). unfold body. rewrite (rd_nth (map (f_phi M n) lines) k (f_phi M n 0)) by (rewrite map_length; lia). rewrite map_nth. rewrite (rd_nth rs k 0) by lia.
    assert (Hi : (nth k lines 0 < n)%nat). { rewrite Forall_forall in HF. apply HF, nth_In. lia. }
    destruct (theta_index M HM n (nth k lines 0%nat) bins Hi Hn Hb) as (z & Ez & Hz & Hs). cbv zeta. rewrite Ez. rewrite at_toNat by lia. rewrite Nat2Z.id. rewrite (nth_error_nth' out []) by lia.
    destruct (wr_some out z (nth z out [] ++ [nth k rs 0]) []) as (out' & E & L' & Hn'); [lia|]. exists out'. split; [exact E|]. split; [lia|]. exists (sectors ++ [z]). split; [rewrite app_length; cbn [length]; lia|]. split.
    + intros t Ht. destruct (Nat.lt_ge_cases t k) as [Hl|Hl]; [rewrite app_nth1 by lia; apply H1; exact Hl|]. assert (t = k) by lia. subst t. rewrite app_nth2 by lia. rewrite L2, Nat.sub_diag. cbn [nth]. split; [exact Hz|exact Hs].
    + intros j Hj. rewrite (firstn_snoc rs k 0) by lia. rewrite radii_snoc by (rewrite firstn_length; lia). rewrite Hn'. destruct (Nat.eqb_spec j z) as [->|Hne].
      * rewrite Nat.eqb_refl, H2 by exact Hz. reflexivity.
      * destruct (Nat.eqb_spec z j); [congruence|]. rewrite app_nil_r. apply H2. exact Hj.
  - exists sectors, out. split; [exact E|]. split; [lia|]. split; [exact L|]. rewrite HL in H1. split; [exact H1|]. rewrite firstn_all in H2. exact H2.
Qed.
Print Assumptions C210_sectors.

Example C209_nonvacuous : forall seed, reachable (f_next ieee) (xs_init seed) (xs_init seed) /\ accurate ieee /\ r64 ieee 1 = 1 /\ is_float64 (-1) /\ Rabs (-1) <= 2 ^ 17 * (1 - -1) /\
  (Z.abs 5 <= 2 ^ 17 * (10 - 5))%Z.
Proof.
  intros seed. split; [exists O, []; reflexivity|]. split; [exact ieee_accurate|]. split; [exact ieee_one|]. split; [apply (ieee_int (-1)); cbn; lia|]. split; [rewrite Rabs_left; lra|cbn; lia].
Qed.

Example C210_nonvacuous : accurate ieee /\ (3 <= 2 ^ 30)%nat /\ Forall (fun i => (i < 3)%nat) [0; 2]%nat /\
  exists sectors out, f_bin_radii ieee [1; 2] (map (f_phi ieee 3) [0; 2]%nat) 2 = Some out /\ length sectors = 2%nat /\ (forall j, (j < 2)%nat -> nth j out [] = radii_of sectors [1; 2] j).
Proof.
  assert (F : Forall (fun i => (i < 3)%nat) [0; 2]%nat) by (repeat constructor). assert (L : (3 <= 2 ^ 30)%nat). { change 3%nat with (2 ^ 1 + 1)%nat. pose proof (Nat.pow_lt_mono_r 2 1 30 ltac:(lia) ltac:(lia)). lia. }
  assert (L2 : (1 <= 2 <= 2 ^ 30)%nat) by (split; [lia|]; eapply Nat.le_trans; [|exact L]; lia).
  split; [exact ieee_accurate|]. split; [exact L|]. split; [exact F|]. destruct (C210_sectors ieee 3 2 [0; 2]%nat [1; 2] ieee_accurate L L2 eq_refl F) as (se & out & E & Ls & _ & _ & H). eauto.
Qed.
