(** * Draws of the xorshift generator: every run of four values occurs; the rejection loop of normVecs ends. *)
From Coq Require Import NArith ZArith Lia Lra Reals.
From Verif Require Import GoBase GoBaseFacts RealBase LoopBase RandModel RandSpec RandProofs InterpProofs XsProofs NormVecModel.
Import List ListNotations.
Local Open Scope N_scope.

Lemma period_big : 4 < period. Proof. reflexivity. Qed.
Global Opaque period.

(** ** States and codes *)
Lemma valid_in32 g : xs_valid g <-> in32 g.
Proof. unfold xs_valid, in32. tauto. Qed.

Lemma shiftr_small a n : a < 2 ^ n -> N.shiftr a n = 0.
Proof. intros H. rewrite N.shiftr_div_pow2. now apply N.div_small. Qed.

Lemma low32_small a : a < 2 ^ 32 -> low32 a = a.
Proof. intros H. unfold low32. rewrite N.land_ones. now apply N.mod_small. Qed.

Lemma low32_shiftl a n : 32 <= n -> low32 (N.shiftl a n) = 0.
Proof.
  intros H. unfold low32. apply N.bits_inj. intros i. rewrite N.land_spec, N.bits_0. destruct (N.lt_ge_cases i 32) as [Hi|Hi].
  - rewrite N.shiftl_spec_low by lia. reflexivity.
  - rewrite N.ones_spec_high by lia. apply Bool.andb_false_r.
Qed.

Lemma code_low g : in32 g -> low32 (code g) = xs_x g.
Proof.
  intros (Hx & _). unfold code. rewrite !(add_low _ add_id). rewrite low32_small, !low32_shiftl by (assumption || lia). now rewrite !N.lxor_0_r.
Qed.

Lemma code_32 g : in32 g -> N.shiftr (code g) 32 = N.lxor (xs_y g) (N.lxor (N.shiftl (xs_z g) 32) (N.shiftl (xs_w g) 64)).
Proof.
  intros (Hx & _). unfold code. rewrite !N.shiftr_lxor, (shiftr_small _ 32) by assumption. rewrite N.lxor_0_l.
  rewrite !N.shiftr_shiftl_l by lia. change (32 - 32) with 0. now rewrite N.shiftl_0_r.
Qed.

Lemma code_64 g : in32 g -> N.shiftr (code g) 64 = N.lxor (xs_z g) (N.shiftl (xs_w g) 32).
Proof.
  intros H. change 64 with (32 + 32) at 1. rewrite <- N.shiftr_shiftr, code_32 by exact H. destruct H as (_ & Hy & _).
  rewrite !N.shiftr_lxor, (shiftr_small _ 32) by assumption. rewrite N.lxor_0_l, !N.shiftr_shiftl_l by lia. change (32 - 32) with 0. now rewrite N.shiftl_0_r.
Qed.

Lemma code_96 g : in32 g -> N.shiftr (code g) 96 = xs_w g.
Proof.
  intros H. change 96 with (64 + 32) at 1. rewrite <- N.shiftr_shiftr, code_64 by exact H. destruct H as (_ & _ & Hz & _).
  rewrite !N.shiftr_lxor, (shiftr_small _ 32) by assumption. rewrite N.lxor_0_l, !N.shiftr_shiftl_l by lia. change (32 - 32) with 0. now rewrite N.shiftl_0_r.
Qed.

Lemma u32_low x : u32 x = low32 x.
Proof. unfold u32, low32. now rewrite N.land_ones. Qed.

Lemma code_step g : in32 g -> T (code g) = code (xs_step g).
Proof.
  intros H. unfold T, T_w, T_t. rewrite code_low, code_32, code_96 by exact H. unfold code, xs_step. cbn [xs_x xs_y xs_z xs_w]. rewrite u32_low.
  now rewrite !N.lxor_assoc.
Qed.

Lemma lxor_cancel a b c : N.lxor a c = N.lxor b c -> a = b.
Proof. intros H. apply (f_equal (fun v => N.lxor v c)) in H. rewrite (N.lxor_assoc a c c), (N.lxor_assoc b c c), N.lxor_nilpotent, !N.lxor_0_r in H. exact H. Qed.

Lemma code_inj g h : in32 g -> in32 h -> code g = code h -> g = h.
Proof.
  intros Hg Hh E. pose proof (code_low g Hg) as X. rewrite E, (code_low h Hh) in X. pose proof (code_96 g Hg) as Wd. rewrite E, (code_96 h Hh) in Wd.
  pose proof (code_64 g Hg) as Z1. rewrite E, (code_64 h Hh) in Z1. pose proof (code_32 g Hg) as Y1. rewrite E, (code_32 h Hh) in Y1.
  rewrite Wd in Z1, Y1. apply lxor_cancel in Z1. rewrite Z1 in Y1. apply lxor_cancel in Y1.
  destruct g, h. cbn in *. congruence.
Qed.

Lemma code_bound g : in32 g -> code g < W.
Proof.
  intros (Hx & Hy & Hz & Hw). unfold code. apply (lxor_bound _ _ 128); [apply N.lt_trans with (2 ^ 32); [exact Hx|reflexivity]|].
  apply (lxor_bound _ _ 128); [apply N.lt_trans with (2 ^ 64); [now apply (shiftl_bound _ 32 32)|reflexivity]|].
  apply (lxor_bound _ _ 128); [apply N.lt_trans with (2 ^ 96); [now apply (shiftl_bound _ 32 64)|reflexivity]|]. now apply (shiftl_bound _ 32 96).
Qed.

Lemma code_nonzero g : xs_good g -> 0 < code g.
Proof.
  intros [Hv Hn]. apply valid_in32 in Hv. destruct (N.eq_dec (code g) 0) as [E|]; [|lia]. exfalso. apply Hn.
  assert (g = {| xs_w := 0; xs_x := 0; xs_y := 0; xs_z := 0 |}) as ->; [|auto]. apply code_inj; [exact Hv|repeat split; reflexivity|exact E].
Qed.

Lemma iter_good n g : xs_good g -> xs_good (N.iter n xs_step g).
Proof. apply (N.iter_invariant n _ xs_step xs_good). exact xs_step_good. Qed.

Lemma iter_in32 n g : xs_good g -> in32 (N.iter n xs_step g).
Proof. intros H. apply (proj1 (valid_in32 _)). apply (proj1 (iter_good n g H)). Qed.

Lemma code_iter n g : xs_good g -> code (N.iter n xs_step g) = N.iter n T (code g).
Proof.
  intros H. induction n as [|n IH] using N.peano_ind; [reflexivity|]. rewrite !N.iter_succ, <- IH. symmetry. apply code_step.
  now apply iter_in32.
Qed.

Lemma states_all g u : xs_good g -> xs_good u -> exists n, n < period /\ N.iter n xs_step g = u.
Proof.
  intros Hg Hu. pose proof (valid_in32 g) as [Vg _]. pose proof (valid_in32 u) as [Vu _]. destruct Hg as [G1 G2]. destruct Hu as [U1 U2].
  destruct (orbit_all_from (code g) (code u)) as (n & Hn & E);
    [apply code_nonzero; now split|now apply code_bound, Vg|apply code_nonzero; now split|now apply code_bound, Vu|].
  exists n. split; [exact Hn|]. apply code_inj; [apply iter_in32; now split|now apply Vu|]. rewrite code_iter by now split. exact E.
Qed.

Lemma states_period g : xs_good g -> N.iter period xs_step g = g /\ forall n, 0 < n -> n < period -> N.iter n xs_step g <> g.
Proof.
  intros Hg. pose proof (proj1 (valid_in32 g) (proj1 Hg)) as Vg. split.
  - apply (code_inj _ _ (iter_in32 period g Hg) Vg). rewrite (code_iter period g Hg). exact (orbit_period_fix (code g) (code_bound g Vg)).
  - intros n H1 H2 E. apply (f_equal code) in E. rewrite code_iter in E by exact Hg. revert E. apply orbit_period; auto; [now apply code_nonzero|now apply code_bound].
Qed.

(** ** Steps and draws *)
Lemma value_not_1 g : xs_valid g -> xs_w g <> 0 -> xs_value g <> 1%R.
Proof. intros H Hw E. apply Hw. now apply (xs_value_range g H). Qed.

Lemma next_step g : xs_good g -> exists j, 1 <= j <= 4 /\ xs_next g = Some (xs_value (N.iter j xs_step g), N.iter j xs_step g) /\
  xs_w (N.iter j xs_step g) <> 0 /\ forall i, 1 <= i < j -> xs_w (N.iter i xs_step g) = 0.
Proof.
  intros H0. set (g1 := xs_step g). set (g2 := xs_step g1). set (g3 := xs_step g2). set (g4 := xs_step g3).
  assert (H1 : xs_good g1) by now apply xs_step_good. assert (H2 : xs_good g2) by now apply xs_step_good.
  assert (H3 : xs_good g3) by now apply xs_step_good. assert (H4 : xs_good g4) by now apply xs_step_good.
  assert (V : forall h, xs_good h -> (xs_w h = 0 /\ Reqb (xs_value h) 1 = true) \/ (xs_w h <> 0 /\ Reqb (xs_value h) 1 = false)).
  { intros h Hh. destruct (xs_value_range h (proj1 Hh)) as [_ Hr]. destruct (N.eq_dec (xs_w h) 0) as [E|E]; [left|right]; split; auto.
    - apply Hr in E. rewrite E. unfold Reqb. destruct (Req_EM_T 1 1); [reflexivity|contradiction].
    - unfold Reqb. destruct (Req_EM_T (xs_value h) 1) as [Ev|]; [|reflexivity]. apply Hr in Ev. contradiction. }
  unfold xs_next. cbn [xs_nextF]. fold g1 g2 g3 g4.
  destruct (V g1 H1) as [[A1 B1]|[A1 B1]]; rewrite B1; [|exists 1; split; [lia|]; split; [reflexivity|]; split; [exact A1|intros; lia]].
  destruct (V g2 H2) as [[A2 B2]|[A2 B2]]; rewrite B2.
  2:{ exists 2. split; [lia|]; split; [reflexivity|]; split; [exact A2|]. intros i Hi. assert (i = 1) as -> by lia. exact A1. }
  destruct (V g3 H3) as [[A3 B3]|[A3 B3]]; rewrite B3.
  2:{ exists 3. split; [lia|]; split; [reflexivity|]; split; [exact A3|]. intros i Hi. assert (i = 1 \/ i = 2) as [-> | ->] by lia; assumption. }
  destruct (V g4 H4) as [[A4 B4]|[A4 B4]]; rewrite B4.
  2:{ exists 4. split; [lia|]; split; [reflexivity|]; split; [exact A4|]. intros i Hi. assert (i = 1 \/ i = 2 \/ i = 3) as [-> | [-> | ->]] by lia; assumption. }
  exfalso. apply (proj2 H4). split; [exact A4|]. split; [exact A1|]. split; [exact A2|exact A3].
Qed.

(** A state with w <> 0 that is n > 0 steps ahead is where some draw ends. *)
Lemma draws_reach n : forall g, xs_good g -> 0 < n -> xs_w (N.iter n xs_step g) <> 0 ->
  exists m vs, draws xs_next (S m) g = Some (vs ++ [xs_value (N.iter n xs_step g)], N.iter n xs_step g) /\ length vs = m /\ N.of_nat (S m) <= n.
Proof.
  induction n as [n IH] using (well_founded_induction N.lt_wf_0). intros g Hg Hn Hw.
  destruct (next_step g Hg) as (j & Hj & En & _ & Hz). destruct (N.lt_trichotomy n j) as [H|[H|H]].
  - exfalso. apply Hw, Hz. lia.
  - subst n. exists O, []. cbn [draws]. rewrite En. split; [reflexivity|]. split; [reflexivity|lia].
  - assert (E : N.iter n xs_step g = N.iter (n - j) xs_step (N.iter j xs_step g)) by (rewrite <- N.iter_add; f_equal; lia).
    destruct (IH (n - j) ltac:(lia) (N.iter j xs_step g)) as (m & vs & Ed & L & Lm); [now apply iter_good|lia|now rewrite <- E|].
    rewrite <- E in Ed. exists (S m), (xs_value (N.iter j xs_step g) :: vs). split; [|split; [cbn; now rewrite L|lia]]. cbn [draws app] in Ed |- *. rewrite En.
    destruct (xs_next (N.iter j xs_step g)) as [[v s']|]; [|discriminate]. destruct (draws xs_next m s') as [[ws s'']|]; [|discriminate].
    injection Ed as E1 E2. rewrite E1, E2. reflexivity.
Qed.

Definition state4 (a b c d : N) : xorshift := {| xs_x := a; xs_y := b; xs_z := c; xs_w := d |}.
Definition word (a : N) : Prop := 0 < a < 2 ^ 32.
Definition wvalue (a : N) : R := (IZR (Z.of_N (maxUint32 - a)) / IZR (Z.of_N maxUint32))%R.

Lemma next_one g : xs_good g -> xs_w (xs_step g) <> 0 -> xs_next g = Some (wvalue (xs_w (xs_step g)), xs_step g).
Proof.
  intros Hg Hw. destruct (next_step g Hg) as (j & Hj & En & _ & Hz). assert (j = 1) as ->; [|exact En].
  destruct (N.eq_dec j 1) as [|Hne]; [assumption|]. exfalso. apply Hw, (Hz 1). lia.
Qed.

Lemma quad g a b c d : xs_good g -> word a -> word b -> word c -> word d ->
  exists m vs, draws xs_next (m + 4) g = Some (vs ++ [wvalue a; wvalue b; wvalue c; wvalue d], state4 a b c d) /\ length vs = m.
Proof.
  intros Hg (Ha & Ha') (Hb & Hb') (Hc & Hc') (Hd & Hd'). set (u := state4 a b c d).
  assert (Gu : xs_good u). { split; [repeat split; assumption|]. intros (E & _). cbn in E. lia. }
  destruct (states_all g u Hg Gu) as (n0 & _ & E0). set (n := n0 + period).
  assert (E : N.iter n xs_step g = u). { unfold n. rewrite N.iter_add, (proj1 (states_period g Hg)). exact E0. }
  set (h := N.iter (n - 3) xs_step g). assert (Hh : xs_good h) by now apply iter_good.
  assert (Eh : xs_step (xs_step (xs_step h)) = u).
  { rewrite <- E. unfold h. rewrite <- !N.iter_succ. f_equal. unfold n. pose proof period_big. lia. }
  assert (Xw : xs_w h = a) by (apply (f_equal xs_x) in Eh; exact Eh).
  assert (Yw : xs_w (xs_step h) = b) by (apply (f_equal xs_y) in Eh; exact Eh).
  assert (Zw : xs_w (xs_step (xs_step h)) = c) by (apply (f_equal xs_z) in Eh; exact Eh).
  assert (Ww : xs_w (xs_step (xs_step (xs_step h))) = d) by (apply (f_equal xs_w) in Eh; exact Eh).
  destruct (draws_reach (n - 3) g Hg) as (m & vs & Ed & L & _); [unfold n; pose proof period_big; lia|fold h; lia|]. fold h in Ed.
  exists m, vs. split; [|exact L].
  assert (D3 : draws xs_next 3 h = Some ([wvalue b; wvalue c; wvalue d], u)).
  { cbn [draws]. rewrite next_one by (auto; lia). rewrite next_one by (try apply xs_step_good; auto; lia).
    rewrite next_one by (try apply xs_step_good; try apply xs_step_good; auto; lia). rewrite Yw, Zw, Ww, Eh. reflexivity. }
  replace (m + 4)%nat with (S m + 3)%nat by lia. rewrite (draws_app xs_next (S m) 3 g _ _ _ _ Ed D3). rewrite <- app_assoc. cbn [app]. 
  replace (xs_value h) with (wvalue a) by (unfold wvalue, xs_value; now rewrite Xw). reflexivity.
Qed.

Lemma draws_steps n : forall g vs g', xs_good g -> draws xs_next n g = Some (vs, g') -> exists t, N.of_nat n <= t <= 4 * N.of_nat n /\ g' = N.iter t xs_step g.
Proof.
  induction n as [|n IH]; intros g vs g' Hg E; cbn [draws] in E.
  - injection E as <- <-. exists 0. split; [lia|reflexivity].
  - destruct (next_step g Hg) as (j & Hj & En & _). rewrite En in E. set (h := N.iter j xs_step g) in *.
    destruct (draws xs_next n h) as [[ws s]|] eqn:Ed; [|discriminate]. injection E as <- <-.
    destruct (IH h ws s) as (t & Ht & ->); [now apply iter_good|exact Ed|]. exists (t + j). split; [lia|]. unfold h. now rewrite <- N.iter_add.
Qed.
