(** * C213: rounding in the Tausworthe generator *)
From Coq Require Import Reals Lra Lia List Bool ZArith Psatz.
From Flocq Require Import Core.
From Verif Require Import RealBase LoopBase LoopFacts InterpProofs RandModel RandSpec RandProofs RoundModel Props_Round Props_RoundRing Props_RoundRand RoundTausModel.
Import List ListNotations.
Local Open Scope R_scope.

(** ** Specification *)
Definition closed_unit (x : R) : Prop := 0 <= x <= 1.

(** The difference of two table entries, plus one if it is negative. *)
Definition wrapped (a b : R) : R := if Rlt_dec (a - b) 0 then a - b + 1 else a - b.

(** A source that returns multiples of 2^-53 in [0, 1), as Go's Float64 does. *)
Definition go_like {S : Type} (goFloat : S -> R * S) : Prop := forall s, unit_interval (fst (goFloat s)) /\ exists k : Z, fst (goFloat s) = IZR k * / 2 ^ 53.

(** ** Proofs *)
Lemma r64_zero : r64 ieee 0 = 0. Proof. apply (ieee_int 0). cbn. lia. Qed.

Lemma r64_pow k : r64 ieee (/ 2 ^ k) = / 2 ^ k.
Proof.
  apply (ieee_exact _ 1 (- Z.of_nat k)); [|cbn; lia]. rewrite bpow_opp, Rmult_1_l. f_equal. rewrite <- IZR_Zpower by lia. change (radix_val radix2) with 2%Z.
  rewrite <- pow_IZR. reflexivity.
Qed.

Lemma r64_negpow k : r64 ieee (- / 2 ^ k) = - / 2 ^ k.
Proof.
  apply (ieee_exact _ (-1) (- Z.of_nat k)); [|cbn; lia]. rewrite bpow_opp. rewrite <- IZR_Zpower by lia. change (radix_val radix2) with 2%Z.
  rewrite <- pow_IZR. lra.
Qed.

(** 2 - 2/2^d is a float64 for d up to 52. *)
Lemma r64_two d : (d <= 52)%nat -> r64 ieee (2 - 2 * / 2 ^ d) = 2 - 2 * / 2 ^ d.
Proof.
  intros Hd. apply (ieee_exact _ (2 * 2 ^ Z.of_nat d - 2) (- Z.of_nat d)).
  - rewrite bpow_opp, <- IZR_Zpower by lia. change (radix_val radix2) with 2%Z. rewrite minus_IZR, mult_IZR, <- pow_IZR. field. apply pow_nonzero. lra.
  - assert (1 <= 2 ^ Z.of_nat d)%Z by (apply (Z.pow_le_mono_r 2 0); lia). assert (2 ^ Z.of_nat d <= 2 ^ 52)%Z by (apply Z.pow_le_mono_r; lia). change (2 ^ 53)%Z with (2 * 2 ^ 52)%Z. lia.
Qed.

Section Source.
Context {S : Type} (gf : S -> R * S).

Lemma go_uniform_ok d s : unit_interval (fst (gf s)) -> exists v s', f_go_uniform ieee gf 0 (/ 2 ^ d) s = (v, s') /\ 0 <= v <= / 2 ^ d.
Proof.
  intros [G1 G2]. unfold f_go_uniform. destruct (gf s) as [f s']. cbn [fst] in *. assert (P : 0 < / 2 ^ d) by (apply Rinv_0_lt_compat, pow_lt; lra).
  destruct (Reqb 0 0 && Reqb (/ 2 ^ d) 1) eqn:E.
  - apply andb_true_iff in E. destruct E as [_ E]. apply Reqb_true in E. rewrite E. eexists _, _. split; [reflexivity|]. lra.
  - eexists _, _. split; [reflexivity|]. rewrite Rminus_0_r, r64_pow, Rplus_0_r. set (w := / 2 ^ d) in *.
    assert (B : 0 <= f * w <= w) by nra. assert (Ew : r64 ieee w = w) by apply r64_pow.
    assert (L : 0 <= r64 ieee (f * w) <= w). { split; [rewrite <- r64_zero|rewrite <- Ew at 2]; apply ieee_mono; tauto. }
    split; [rewrite <- r64_zero|rewrite <- Ew at 2]; apply ieee_mono; tauto.
Qed.

Definition t_closed (g : tausworthe) : Prop :=
  Forall closed_unit (t_seq g) /\ (t_leader g < length (t_seq g))%nat /\ (t_first g < length (t_seq g))%nat /\ (t_second g < length (t_seq g))%nat.

Lemma f_t_init_ok s : (forall s, unit_interval (fst (gf s))) -> exists g, f_t_init ieee gf s = Some g /\ Forall unit_interval (t_seq g) /\ t_closed g.
Proof.
  intros Hg. unfold f_t_init.
  match goal with |- context [loop tauswortheDigitsRandomized ?B ?I] =>
    destruct (loop_inv (fun d st => let '(seq, f, _) := st in length seq = tauswortheSeqLen /\ f = / 2 ^ d /\ forall i, (i < length seq)%nat -> 0 <= nth i seq 0 <= 2 - 2 * / 2 ^ d)
      tauswortheDigitsRandomized B I) as ([[seq f] s'] & E & L & Hf & HF) end.
  - split; [apply repeat_length|]. split; [cbn; lra|]. intros i Hi. rewrite nth_repeat. cbn. lra.
  - intros d [[seq f] s0] Hd (L & -> & HF). assert (Hd' : (d < 15)%nat) by exact Hd.
    assert (Eh : / 2 ^ Datatypes.S d = / 2 ^ d / 2). { cbn [pow]. field. apply pow_nonzero. lra. }
    match goal with |- context [loop (length seq) ?B ?I] =>
      destruct (loop_inv (fun k st => length (fst st) = length seq /\ forall i, (i < length seq)%nat ->
         if (i <? k)%nat then 0 <= nth i (fst st) 0 <= 2 - 2 * / 2 ^ Datatypes.S d else nth i (fst st) 0 = nth i seq 0) (length seq) B I) as ([seq' s1] & E & L' & H) end.
    + cbn [fst]. split; [reflexivity|]. intros i Hi. destruct (Nat.ltb_spec i 0); [lia|reflexivity].
    + intros k [t s1] Hk (Lt & Ht). cbn [fst] in *. destruct (go_uniform_ok d s1 (Hg s1)) as (v & s2 & Ev & Hv). rewrite Ev.
      rewrite (rd_nth t k 0) by lia.
      destruct (wr_some t k (r64 ieee (nth k t 0 + v)) 0 ltac:(lia)) as (t' & Ew & Lw & Hw). rewrite Ew.
      eexists. split; [reflexivity|]. cbn [fst]. split; [lia|]. intros i Hi. rewrite Hw.
      pose proof (Ht i Hi) as Hti. destruct (Nat.eqb_spec i k) as [->|Hne].
      * rewrite (proj2 (Nat.ltb_lt k (Datatypes.S k))) by lia. rewrite Nat.ltb_irrefl in Hti. rewrite Hti. pose proof (HF k Hk) as Hx. set (x := nth k seq 0) in *.
        assert (P : 0 < / 2 ^ d) by (apply Rinv_0_lt_compat, pow_lt; lra). rewrite Eh.
        assert (E2 : r64 ieee (2 - 2 * / 2 ^ Datatypes.S d) = 2 - 2 * / 2 ^ Datatypes.S d) by (apply r64_two; lia). rewrite Eh in E2.
        split; [rewrite <- r64_zero|rewrite <- E2]; apply ieee_mono; lra.
      * destruct (Nat.ltb_spec i k), (Nat.ltb_spec i (Datatypes.S k)); try lia; assumption.
    + rewrite E. eexists. split; [reflexivity|]. cbn [fst] in *. split; [lia|]. split; [rewrite <- Eh; apply r64_pow|]. intros i Hi. specialize (H i ltac:(lia)).
      rewrite (proj2 (Nat.ltb_lt i (length seq))) in H by lia. exact H.
  - rewrite E. eexists. split; [reflexivity|]. cbn [t_seq].
    assert (U : Forall unit_interval (map (fun x => if Rleb 1 x then r64 ieee (x - 1) else x) seq)).
    { apply Forall_forall. intros x Hx. apply in_map_iff in Hx. destruct Hx as (y & <- & Hy). apply (In_nth _ _ 0) in Hy. destruct Hy as (i & Hi & <-). specialize (HF i Hi). set (y := nth i seq 0) in *. clearbody y.
      change tauswortheDigitsRandomized with 15%nat in HF. unfold unit_interval. destruct (Rleb 1 y) eqn:Ey; [apply Rleb_true in Ey|apply Rleb_false in Ey; lra].
      split; [rewrite <- r64_zero; apply ieee_mono; lra|]. apply Rle_lt_trans with (r64 ieee (1 / 2 + (1 / 2 - / 2 ^ 14))); [apply ieee_mono; lra|].
      rewrite (ieee_exact _ 16383 (-14)); [lra|change (bpow radix2 (-14)) with (/ 16384); lra|cbn; lia]. }
    split; [exact U|]. unfold t_closed. cbn [t_seq t_leader t_first t_second]. rewrite map_length, L. split; [|split; [|split]].
    + eapply Forall_impl; [|exact U]. intros x [A B]. unfold closed_unit. lra.
    + apply Nat.ltb_lt. vm_compute. reflexivity.
    + apply Nat.ltb_lt. vm_compute. reflexivity.
    + apply Nat.ltb_lt. vm_compute. reflexivity.
Qed.
End Source.

Lemma next_value a b : closed_unit a -> closed_unit b -> let d := r64 ieee (a - b) in let next := if Rltb d 0 then r64 ieee (d + 1) else d in
  closed_unit next /\ Rabs (next - wrapped a b) <= / 2 ^ 52 /\ (next = 1 -> a - b = 1 \/ 1 - / 2 ^ 53 <= a - b \/ - / 2 ^ 53 < a - b < 0).
Proof.
  intros Ha Hb d next. unfold closed_unit in *. pose proof ieee_accurate as (_ & A64 & _).
  assert (Hd : -1 <= d <= 1). { unfold d. split. - replace (-1) with (r64 ieee (-1)) by (apply (ieee_int (-1)); cbn; lia). apply ieee_mono. lra. - rewrite <- ieee_one. apply ieee_mono. lra. }
  pose proof (A64 (a - b)) as E1. fold d in E1. assert (B1 : Rabs (a - b) <= 1) by (apply Rabs_le; lra). assert (E1' : Rabs (d - (a - b)) <= / 2 ^ 53) by lra. apply Rabs_le_inv in E1'.
  assert (Sgn : d < 0 <-> a - b < 0). { split; intros H.
    - destruct (Rlt_dec (a - b) 0); [assumption|]. assert (0 <= d) by (unfold d; rewrite <- r64_zero; apply ieee_mono; lra). lra.
    - rewrite (Rabs_left (a - b)) in E1 by exact H. apply Rabs_le_inv in E1. assert (d <= (a - b) * (1 - / 2 ^ 53)) by lra. assert ((a - b) * (1 - / 2 ^ 53) < 0) by nra. lra. }
  unfold next, wrapped. destruct (Rltb d 0) eqn:E.
  - apply Rltb_true in E. destruct (Rlt_dec (a - b) 0) as [Hlt|Hn]; [|exfalso; apply Hn; now apply Sgn]. pose proof (A64 (d + 1)) as E2. set (n := r64 ieee (d + 1)) in *.
    assert (Hn : 0 <= n <= 1). { unfold n. split; [rewrite <- r64_zero; apply ieee_mono; lra|]. apply Rle_trans with (r64 ieee 1); [apply ieee_mono; lra|rewrite ieee_one; lra]. }
    rewrite (Rabs_pos_eq (d + 1)) in E2 by lra. apply Rabs_le_inv in E2. split; [exact Hn|]. split; [apply Rabs_le; lra|].
    intros E3. right. right. split; [|exact Hlt]. destruct (Rlt_dec (- / 2 ^ 53) (a - b)) as [|Hge]; [assumption|]. exfalso.
    assert (D1 : d <= - / 2 ^ 53). { rewrite <- r64_negpow. apply ieee_mono. lra. }
    assert (N1 : n <= 1 - / 2 ^ 53). { rewrite <- (ieee_exact (1 - / 2 ^ 53) (2 ^ 53 - 1) (-53)); [apply ieee_mono; lra| |cbn; lia]. change (bpow radix2 (-53)) with (/ 9007199254740992). lra. }
    rewrite E3 in N1. lra.
  - apply Rltb_false in E. destruct (Rlt_dec (a - b) 0) as [Hlt|Hn]; [exfalso; apply Sgn in Hlt; lra|]. split; [lra|]. split; [apply Rabs_le; lra|].
    intros E3. right. left. lra.
Qed.

Lemma f_t_next_ok g : t_closed g -> exists v g', f_t_next ieee g = Some (v, g') /\ t_closed g' /\ closed_unit v /\
  let a := nth (t_first g) (t_seq g) 0 in let b := nth (t_second g) (t_seq g) 0 in
  Rabs (v - wrapped a b) <= / 2 ^ 52 /\ (v = 1 -> a - b = 1 \/ 1 - / 2 ^ 53 <= a - b \/ - / 2 ^ 53 < a - b < 0).
Proof.
  intros (HF & H1 & H2 & H3). unfold f_t_next. rewrite (rd_nth _ _ 0 H2), (rd_nth _ _ 0 H3). rewrite Forall_forall in HF.
  assert (Ha : closed_unit (nth (t_first g) (t_seq g) 0)) by (apply HF, nth_In; exact H2). assert (Hb : closed_unit (nth (t_second g) (t_seq g) 0)) by (apply HF, nth_In; exact H3). rewrite <- Forall_forall in HF.
  cbv zeta. destruct (next_value _ _ Ha Hb) as (V1 & V2 & V3). cbv zeta in V1, V2, V3. set (a := nth (t_first g) (t_seq g) 0) in *. set (b := nth (t_second g) (t_seq g) 0) in *.
  set (v := if Rltb (r64 ieee (a - b)) 0 then r64 ieee (r64 ieee (a - b) + 1) else r64 ieee (a - b)) in *.
  destruct (wr_some (t_seq g) (t_leader g) v 0 H1) as (s & E & L & _). rewrite E. eexists _, _. split; [reflexivity|]. split; [|auto].
  unfold t_closed. cbn [t_seq t_leader t_first t_second]. rewrite L.
  assert (Hw : forall i, (i < length (t_seq g))%nat -> (wrapDec (length (t_seq g)) i < length (t_seq g))%nat).
  { intros i Hi. unfold wrapDec. destruct (Nat.eqb_spec i 0); lia. }
  split; [exact (wr_Forall _ _ _ _ _ HF V1 E)|]. auto.
Qed.

Lemma t_closed_reach n : forall g vs g', t_closed g -> draws (f_t_next ieee) n g = Some (vs, g') -> t_closed g'.
Proof.
  induction n as [|n IH]; intros g vs g' Hg E; cbn [draws] in E; [injection E as <- <-; exact Hg|].
  destruct (f_t_next_ok g Hg) as (v & g1 & E1 & G1 & _). rewrite E1 in E. destruct (draws (f_t_next ieee) n g1) as [[xs g2]|] eqn:Ed; [|discriminate]. injection E as <- <-. exact (IH g1 xs g2 G1 Ed).
Qed.

(** ** C213 *)

(** The table of a new generator is in [0, 1), and then every draw, in every history, is in the closed interval [0, 1] and is the wrapped difference of two table
    entries up to 2^-52; it is 1 only if the two entries are less than 2^-53 apart or one is 0 and the other within 2^-53 of 1. *)
Theorem C213_unit_partial : forall (S : Type) (goFloat : S -> R * S) s0, (forall s, unit_interval (fst (goFloat s))) ->
  exists g0, f_t_init ieee goFloat s0 = Some g0 /\ Forall unit_interval (t_seq g0) /\
    forall g, reachable (f_t_next ieee) g0 g -> exists a b v g', nth_error (t_seq g) (t_first g) = Some a /\ nth_error (t_seq g) (t_second g) = Some b /\
      f_t_next ieee g = Some (v, g') /\ 0 <= v <= 1 /\ Rabs (v - wrapped a b) <= / 2 ^ 52 /\ (v = 1 -> 1 - / 2 ^ 53 <= a - b \/ - / 2 ^ 53 < a - b < 0).
Proof.
  intros S gf s0 Hgf. destruct (f_t_init_ok gf s0 Hgf) as (g0 & E0 & U & C0). exists g0. split; [exact E0|]. split; [exact U|]. intros g (n & vs & E).
  pose proof (t_closed_reach n g0 vs g C0 E) as Hg. destruct (f_t_next_ok g Hg) as (v & g' & En & _ & V1 & V2 & V3). destruct Hg as (_ & _ & H2 & H3).
  eexists _, _, v, g'. split; [exact (nth_error_nth' _ 0 H2)|]. split; [exact (nth_error_nth' _ 0 H3)|]. split; [exact En|]. split; [exact V1|]. split; [exact V2|]. intros Ev. destruct (V3 Ev) as [X|X]; [left; lra|exact X].
Qed.
Print Assumptions C213_unit_partial.

(** The source that draws 0 but for one 2^-53, in the call for the last digit of table entry 4187. *)
Definition the_call : nat := 14 * tauswortheSeqLen + tauswortheSecondOffset.
Definition rare (n : nat) : R * nat := (if Nat.eqb n the_call then / 2 ^ 53 else 0, (n + 1)%nat).

Lemma rare_go_like : go_like rare.
Proof.
  intros n. unfold rare. cbn [fst]. destruct (Nat.eqb n the_call).
  - split; [unfold unit_interval; lra|]. exists 1%Z. lra.
  - split; [unfold unit_interval; lra|]. exists 0%Z. lra.
Qed.

Lemma rare_uniform d n : (d <= 14)%nat -> f_go_uniform ieee rare 0 (/ 2 ^ d) n = (if Nat.eqb n the_call then / 2 ^ (53 + d) else 0, (n + 1)%nat).
Proof.
  intros Hd. unfold f_go_uniform, rare. destruct (Reqb 0 0 && Reqb (/ 2 ^ d) 1) eqn:E.
  - apply andb_true_iff in E. destruct E as [_ E]. apply Reqb_true in E. destruct (Nat.eqb n the_call); [|reflexivity]. f_equal. rewrite pow_add, Rinv_mult_distr by (apply pow_nonzero; lra). rewrite E. ring.
  - f_equal. rewrite Rminus_0_r, r64_pow, Rplus_0_r. destruct (Nat.eqb n the_call).
    + rewrite <- Rinv_mult_distr by (apply pow_nonzero; lra). rewrite <- pow_add. rewrite r64_pow. apply r64_pow.
    + rewrite Rmult_0_l, r64_zero. apply r64_zero.
Qed.

Lemma second_lt : (tauswortheSecondOffset < tauswortheSeqLen)%nat. Proof. apply Nat.ltb_lt. vm_compute. reflexivity. Qed.

Lemma rare_init : exists g, f_t_init ieee rare 0%nat = Some g /\ t_leader g = 0%nat /\ t_first g = tauswortheFirstOffset /\ t_second g = tauswortheSecondOffset /\
  length (t_seq g) = tauswortheSeqLen /\ forall i, (i < tauswortheSeqLen)%nat -> nth i (t_seq g) 0 = if Nat.eqb i tauswortheSecondOffset then / 2 ^ 67 else 0.
Proof.
  pose proof second_lt as HS. unfold f_t_init.
  match goal with |- context [loop tauswortheDigitsRandomized ?B ?I] =>
    destruct (loop_inv (fun d st => let '(seq, f, s) := st in length seq = tauswortheSeqLen /\ f = / 2 ^ d /\ s = (d * tauswortheSeqLen)%nat /\
        forall i, (i < tauswortheSeqLen)%nat -> nth i seq 0 = if Nat.eqb d 15 && Nat.eqb i tauswortheSecondOffset then / 2 ^ 67 else 0)
      tauswortheDigitsRandomized B I) as ([[seq f] s'] & E & L & Hf & Hs & HF) end.
  - split; [apply repeat_length|]. split; [cbn; lra|]. split; [reflexivity|]. intros i Hi. rewrite nth_repeat. reflexivity.
  - intros d [[seq f] s0] Hd (L & -> & -> & HF). assert (Hd' : (d < 15)%nat) by exact Hd.
    assert (Z0 : forall i, (i < tauswortheSeqLen)%nat -> nth i seq 0 = 0). { intros i Hi. rewrite HF by exact Hi. destruct (Nat.eqb_spec d 15); [lia|reflexivity]. } clear HF.
    rewrite L. match goal with |- context [loop tauswortheSeqLen ?B ?I] =>
      destruct (loop_inv (fun k st => length (fst st) = tauswortheSeqLen /\ snd st = (d * tauswortheSeqLen + k)%nat /\ forall i, (i < tauswortheSeqLen)%nat ->
         nth i (fst st) 0 = if (i <? k)%nat && (Nat.eqb (Datatypes.S d) 15 && Nat.eqb i tauswortheSecondOffset) then / 2 ^ 67 else 0) tauswortheSeqLen B I) as ([seq' s1] & E & L' & Hs & H) end.
    + cbn [fst snd]. split; [exact L|]. split; [lia|]. intros i Hi. rewrite Z0 by exact Hi. reflexivity.
    + intros k [t s1] Hk (Lt & Hs & Ht). cbn [fst snd] in *. subst s1. rewrite rare_uniform by lia. rewrite (rd_nth t k 0) by lia.
      match goal with |- context [wr t k ?x] => destruct (wr_some t k x 0 ltac:(lia)) as (t' & Ew & Lw & Hw) end. rewrite Ew.
      eexists. split; [reflexivity|]. cbn [fst snd]. split; [lia|]. split; [lia|]. intros i Hi. rewrite Hw. pose proof (Ht i Hi) as Hti. destruct (Nat.eqb_spec i k) as [->|Hne].
      * rewrite Nat.ltb_irrefl in Hti. cbn [andb] in Hti. rewrite Hti, Rplus_0_l. rewrite (proj2 (Nat.ltb_lt k (Datatypes.S k))) by lia. cbn [andb].
        destruct (Nat.eqb_spec (d * tauswortheSeqLen + k) the_call) as [Ec|Ec]; unfold the_call in Ec.
        -- assert (Hd14 : d = 14%nat). { destruct (Nat.lt_trichotomy d 14) as [Hl|[Hl|Hl]]; [exfalso|exact Hl|lia]. assert ((d + 1) * tauswortheSeqLen <= 14 * tauswortheSeqLen)%nat by (apply Nat.mul_le_mono_r; lia). lia. }
           subst d. assert (Ek : k = tauswortheSecondOffset) by lia. rewrite Ek, Nat.eqb_refl. cbn [Nat.eqb andb]. change (53 + 14)%nat with 67%nat. apply r64_pow.
        -- destruct (Nat.eqb_spec (Datatypes.S d) 15) as [Hd15|Hd15]; cbn [andb]; [|apply r64_zero]. assert (d = 14%nat) by lia. subst d. destruct (Nat.eqb_spec k tauswortheSecondOffset) as [Ek|Ek]; [exfalso; apply Ec; lia|apply r64_zero].
      * rewrite Hti. destruct (Nat.ltb_spec i k), (Nat.ltb_spec i (Datatypes.S k)); try lia; reflexivity.
    + rewrite E. eexists. split; [reflexivity|]. cbn [fst snd] in *. split; [exact L'|]. split.
      { rewrite <- (r64_pow (Datatypes.S d)). f_equal. cbn [pow]. field. apply pow_nonzero. lra. }
      split; [lia|]. intros i Hi. rewrite H by exact Hi. rewrite (proj2 (Nat.ltb_lt i tauswortheSeqLen)) by exact Hi. reflexivity.
  - rewrite E. eexists. split; [reflexivity|]. cbn [t_seq t_leader t_first t_second]. split; [reflexivity|]. split; [reflexivity|]. split; [reflexivity|]. split; [rewrite map_length; exact L|].
    intros i Hi. change tauswortheDigitsRandomized with 15%nat in HF. specialize (HF i Hi). cbn [Nat.eqb andb] in HF. rewrite <- HF.
    assert (Small : nth i seq 0 < 1) by (rewrite HF; destruct (Nat.eqb i tauswortheSecondOffset); lra).
    set (fn := fun x => if Rleb 1 x then r64 ieee (x - 1) else x). assert (F0 : fn 0 = 0). { unfold fn. destruct (Rleb 1 0) eqn:Ez; [apply Rleb_true in Ez; lra|reflexivity]. }
    rewrite <- F0 at 1. rewrite map_nth. unfold fn. destruct (Rleb 1 (nth i seq 0)) eqn:Ez; [apply Rleb_true in Ez; lra|reflexivity].
Qed.

Lemma round_to_one : r64 ieee (- / 2 ^ 67 + 1) = 1.
Proof.
  cbn [r64 ieee]. unfold round, scaled_mantissa, cexp, F2R. cbn [Fnum Fexp].
  assert (Em : mag radix2 (- / 2 ^ 67 + 1) = 0%Z :> Z). { apply mag_unique. rewrite Rabs_pos_eq by lra. change (bpow radix2 (0 - 1)) with (/ 2). change (bpow radix2 0) with 1. lra. }
  rewrite Em. change (FLX_exp 53 0) with (-53)%Z. change (bpow radix2 (- -53)) with 9007199254740992. replace (Znearest (fun x => negb (Z.even x)) ((- / 2 ^ 67 + 1) * 9007199254740992)) with 9007199254740992%Z.
  - change (bpow radix2 (-53)) with (/ 9007199254740992). lra.
  - symmetry. apply Znearest_imp. apply Rabs_lt. lra.
Qed.

(** The end of the range is not excluded: there is a source of multiples of 2^-53 in [0, 1) with which the first draw is 1. *)
Theorem C213_one_refuted : exists (S : Type) (goFloat : S -> R * S) s0 g0 g', go_like goFloat /\ f_t_init ieee goFloat s0 = Some g0 /\ f_t_next ieee g0 = Some (1, g').
Proof.
  destruct rare_init as (g & E & E1 & E2 & E3 & L & H). exists nat, rare, 0%nat, g. pose proof second_lt as HS. assert (HFst : (tauswortheFirstOffset < tauswortheSeqLen)%nat) by (apply Nat.ltb_lt; vm_compute; reflexivity).
  unfold f_t_next. rewrite E1, E2, E3. rewrite (rd_nth _ _ 0), (rd_nth _ tauswortheSecondOffset 0) by lia. rewrite !H by assumption. rewrite Nat.eqb_refl.
  replace (Nat.eqb tauswortheFirstOffset tauswortheSecondOffset) with false by (vm_compute; reflexivity). replace (0 - / 2 ^ 67) with (- / 2 ^ 67) by ring. cbv zeta. rewrite r64_negpow.
  assert (Neg : Rltb (- / 2 ^ 67) 0 = true). { destruct (Rltb (- / 2 ^ 67) 0) eqn:Ez; [reflexivity|]. apply Rltb_false in Ez. lra. } rewrite Neg, round_to_one.
  destruct (wr_some (t_seq g) 0 1 0) as (l & Ew & _); [rewrite L; lia|]. rewrite Ew. eexists. split; [exact rare_go_like|]. split; [exact E|reflexivity].
Qed.
Print Assumptions C213_one_refuted.

(** So UniformInt, which is to return an integer below its second argument, can return that argument, for every length of the range up to 2^53. *)
Theorem C213_uniform_int_refuted : exists (S : Type) (goFloat : S -> R * S) s0 g0, go_like goFloat /\ f_t_init ieee goFloat s0 = Some g0 /\
  forall high, (0 <= high <= 2 ^ 53)%Z -> exists g', f_t_uniformInt ieee 0 high g0 = Some (high, g').
Proof.
  destruct C213_one_refuted as (S & gf & s0 & g0 & g' & H1 & H2 & H3). exists S, gf, s0, g0. split; [exact H1|]. split; [exact H2|]. intros high Hh. exists g'.
  unfold f_t_uniformInt. rewrite H3. rewrite Z.sub_0_r, Rmult_1_r, r64_zero, Rplus_0_r. rewrite !(ieee_int high) by lia. f_equal. f_equal. pose proof (base_Int_part (IZR high)) as [B1 B2].
  apply le_IZR in B1. assert (B3 : IZR high - 1 < IZR (Int_part (IZR high))) by lra. rewrite <- minus_IZR in B3. apply lt_IZR in B3. lia.
Qed.
Print Assumptions C213_uniform_int_refuted.

Example C213_nonvacuous : go_like rare /\ exists g0, f_t_init ieee rare 5%nat = Some g0 /\ reachable (f_t_next ieee) g0 g0.
Proof.
  split; [exact rare_go_like|]. destruct (C213_unit_partial nat rare 5%nat (fun s => proj1 (rare_go_like s))) as (g0 & E & _). exists g0. split; [exact E|]. exists O, []. reflexivity.
Qed.
