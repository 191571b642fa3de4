(** * C192 and C193: the stream of the xorshift generator, and the directions of the rings. *)
From Coq Require Import NArith ZArith Lia Lra Reals.
From Verif Require Import GoBase GoBaseFacts RealBase LoopBase RandModel RandSpec RandProofs InterpProofs XsProofs NormVecModel NormVecSpec NormVecProofs NormVecProofs2.
Import List ListNotations.
Local Open Scope R_scope.
Local Open Scope list_scope.

Lemma reach_good seed g : reachable xs_next (xs_init seed) g -> xs_good g.
Proof.
  intros (n & vs & E). destruct (draws_good xs_good xs_next xs_next_ok n (xs_init seed) (xs_init_ok seed)) as (vs' & g1 & E' & Hg & _).
  rewrite E in E'. now injection E' as <- <-.
Qed.

Lemma grid_word v : grid_value v -> exists a, word a /\ wvalue a = v.
Proof.
  intros (j & Hj & ->). exists (Z.to_N (4294967295 - j)). split; [unfold word; change (2 ^ 32)%N with 4294967296%N; lia|].
  rewrite wv by (unfold maxUint32; change (2 ^ 32 - 1)%N with 4294967295%N; lia). rewrite Z2N.id by lia. rewrite minus_IZR. f_equal. ring.
Qed.

Lemma next_value g : xs_good g -> exists v g', xs_next g = Some (v, g') /\ xs_good g' /\ grid_value v.
Proof.
  intros Hg. destruct (next_step g Hg) as (j & _ & En & Hw & _). set (h := N.iter j xs_step g) in *. assert (Gh : xs_good h) by now apply iter_good.
  exists (xs_value h), h. split; [exact En|]. split; [exact Gh|]. destruct Gh as [(Hb & _) _]. change (2 ^ 32)%N with 4294967296%N in Hb.
  exists (Z.of_N (maxUint32 - xs_w h)). unfold maxUint32. change (2 ^ 32 - 1)%N with 4294967295%N. split; [lia|reflexivity].
Qed.

(** ** C192 *)
(** Next returns multiples of 1 / (2^32 - 1) below 1 and nothing else... *)
Theorem C192_values : forall seed g n vs g', reachable xs_next (xs_init seed) g -> draws xs_next n g = Some (vs, g') -> Forall grid_value vs.
Proof.
  intros seed g n vs g' Hr. apply reach_good in Hr. revert g vs g' Hr. induction n as [|n IH]; intros g vs g' Hg E; cbn [draws] in E; [injection E as <- <-; constructor|].
  destruct (next_value g Hg) as (v & s & En & Gs & Hv). rewrite En in E. destruct (draws xs_next n s) as [[ws s']|] eqn:Ed; [|discriminate]. injection E as <- <-.
  constructor; [exact Hv|]. eapply IH; eauto.
Qed.
Print Assumptions C192_values.

(** ... and, for every seed and after any number of draws, any four of these values in a row are still to come: no value and no run of up to four values is
    missing from the stream of any seed. *)
Theorem C192_every_four : forall seed g v1 v2 v3 v4, reachable xs_next (xs_init seed) g ->
  grid_value v1 -> grid_value v2 -> grid_value v3 -> grid_value v4 ->
  exists m vs g', draws xs_next (m + 4) g = Some (vs ++ [v1; v2; v3; v4], g') /\ length vs = m.
Proof.
  intros seed g v1 v2 v3 v4 Hr H1 H2 H3 H4. apply reach_good in Hr.
  destruct (grid_word _ H1) as (a & Ha & <-). destruct (grid_word _ H2) as (b & Hb & <-). destruct (grid_word _ H3) as (c & Hc & <-). destruct (grid_word _ H4) as (d & Hd & <-).
  destruct (quad g a b c d Hr Ha Hb Hc Hd) as (m & vs & E & L). eauto.
Qed.
Print Assumptions C192_every_four.

(** The generator comes back to a state only after at least (2^128 - 1) / 4 draws... *)
Theorem C192_no_early_return : forall seed g n vs, reachable xs_next (xs_init seed) g -> (0 < n)%nat -> draws xs_next n g = Some (vs, g) ->
  (2 ^ 128 - 1 <= 4 * N.of_nat n)%N.
Proof.
  intros seed g n vs Hr Hn E. apply reach_good in Hr. destruct (draws_steps n g vs g Hr E) as (t & Ht & Et).
  destruct (N.lt_ge_cases t period) as [Hl|Hl].
  - exfalso. apply (proj2 (states_period g Hr) t); [lia|exact Hl|now symmetry].
  - change (2 ^ 128 - 1)%N with period. lia.
Qed.
Print Assumptions C192_no_early_return.

(** ... and it does come back after at most 2^128 - 1 draws. *)
Theorem C192_returns : forall seed n g vs, draws xs_next (S n) (xs_init seed) = Some (vs, g) ->
  exists k ws, (0 < k)%nat /\ (N.of_nat k <= 2 ^ 128 - 1)%N /\ draws xs_next k g = Some (ws, g).
Proof.
  intros seed n g vs E. assert (Hr : reachable xs_next (xs_init seed) g) by (exists (S n), vs; exact E). apply reach_good in Hr.
  assert (Hw : xs_w g <> 0%N).
  { replace (S n) with (n + 1)%nat in E by lia.
    destruct (draws_good xs_good xs_next xs_next_ok n (xs_init seed) (xs_init_ok seed)) as (us & h & Eh & Gh & _).
    destruct (next_step h Gh) as (j & _ & En & Hw & _). assert (D : draws xs_next 1 h = Some ([xs_value (N.iter j xs_step h)], N.iter j xs_step h)) by (cbn [draws]; now rewrite En).
    rewrite (draws_app xs_next n 1 _ _ _ _ _ Eh D) in E. injection E as _ <-. exact Hw. }
  destruct (states_period g Hr) as [Hp _]. destruct (draws_reach period g Hr) as (m & ws & Ed & _ & Lm); [pose proof period_big; lia|now rewrite Hp|].
  rewrite Hp in Ed. exists (S m), (ws ++ [xs_value g]). split; [lia|]. split; [exact Lm|exact Ed].
Qed.
Print Assumptions C192_returns.

Example C192_nonvacuous : reachable xs_next (xs_init 7) (xs_init 7) /\ grid_value 0 /\ grid_value (4294967294 / 4294967295) /\
  exists vs g, draws xs_next 1 (xs_init 7) = Some (vs, g).
Proof.
  split; [exists O, []; reflexivity|]. split; [exists 0%Z; split; [lia|field]|]. split; [exists 4294967294%Z; split; [lia|reflexivity]|].
  destruct (draws_good xs_good xs_next xs_next_ok 1 (xs_init 7) (xs_init_ok 7)) as (vs & g & E & _). eauto.
Qed.

(** ** C193 *)
(** Three rings: the coordinate axes, for every seed. *)
Theorem C193_axes : forall fuel seed, normVecs fuel seed 3 = Some [(0, 0, 1); (0, 1, 0); (1, 0, 0)].
Proof. reflexivity. Qed.
Print Assumptions C193_axes.

(** Any other number n of rings and every seed: the loops end, and give n unit vectors. They point to the first n points in the unit ball that the generator's
    values, stretched to [-1, 1) and taken in threes, give; no point is the origin. With more time the result is the same. *)
Theorem C193_directions : forall seed n, n <> 3%nat ->
  exists fuel vs k ds ts g', (forall more, (fuel <= more)%nat -> normVecs more seed n = Some vs) /\ length vs = n /\ Forall unit vs /\
    draws xs_next (3 * k) (xs_init seed) = Some (ds, g') /\ kept (in_threes (map (fun v => 2 * v - 1) ds)) ts /\ Forall2 points_to ts vs.
Proof.
  intros seed n Hn. pose proof (xs_init_ok seed) as Hg. destruct (pick_all_ends n (xs_init seed) Hg) as (fuel & [vs g'] & E).
  destruct (pick_all_some _ _ _ _ _ Hg E) as (L & k & ds & ts & Ed & Ld & K & P).
  destruct (draws_good xs_good xs_next xs_next_ok (3 * k) (xs_init seed) Hg) as (us & g2 & Eu & _). pose proof (draws_U _ _ _ _ Eu) as Eu'. rewrite Ed in Eu'. injection Eu' as -> ->.
  exists fuel, vs, k, us, ts, g2. split.
  - intros more Hm. unfold normVecs. rewrite (pick_all_mono fuel more n Hm _ _ Hg E). do 4 (destruct n as [|n]; [reflexivity || congruence|]). reflexivity.
  - split; [exact L|]. split; [|split; [exact Eu|]; split; [exact K|exact P]]. clear -P. induction P as [|t v ts vs Hp _ IH]; constructor; [apply Hp|exact IH].
Qed.
Print Assumptions C193_directions.

(** Only the low 32 bits of the seed matter. *)
Theorem C193_seed : forall fuel seed n, normVecs fuel seed n = normVecs fuel (seed mod 2 ^ 32)%N n.
Proof. intros fuel seed n. unfold normVecs, xs_init, u32. rewrite N.mod_mod by discriminate. reflexivity. Qed.
Print Assumptions C193_seed.

Example C193_nonvacuous : kept [(1 / 2, 0, 1 / 2); (1, 1, 0)] [(1 / 2, 0, 1 / 2)] /\ points_to (0, - (1 / 2), 0) (0, -1, 0) /\ 20%nat <> 3%nat.
Proof.
  split; [|split; [|lia]].
  - apply k_in; [unfold in_ball, squared; lra|]. apply k_out; [unfold in_ball, squared; lra|constructor].
  - split; [unfold unit, squared; lra|]. exists (1 / 2). split; [lra|]. repeat split; lra.
Qed.
