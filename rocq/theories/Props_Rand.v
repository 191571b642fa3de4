(** * Properties C20 and C21: math/rand. Floats are reals (RealBase.v), uint32 arithmetic is exact. *)
From Coq Require Import NArith Lra.
From Verif Require Import GoBase GoBaseFacts RealBase LoopBase LoopFacts RandModel RandSpec RandProofs RandProofs2 InterpProofs.
Local Open Scope R_scope.
Local Open Scope list_scope.

(** ** C20 *)

(** Xorshift: for every seed and every number of earlier calls, Next terminates (the retry loop included), its value is in [0,1)... *)
Theorem C20_xorshift_next : forall seed g, reachable xs_next (xs_init seed) g ->
  exists v g', xs_next g = Some (v, g') /\ unit_interval v /\ reachable xs_next (xs_init seed) g'.
Proof.
  intros seed g (n & vs & E).
  destruct (draws_good xs_good xs_next xs_next_ok n (xs_init seed) (xs_init_ok seed)) as (vs' & g1 & E' & Hg & _). rewrite E in E'. injection E' as <- <-.
  destruct (xs_next_ok g Hg) as (v & g' & En & _ & Hv). exists v, g'. split; [exact En|]. split; [exact Hv|].
  exists (n + 1)%nat, (vs ++ [v]). apply (draws_app _ _ _ _ _ _ _ _ E). cbn [draws]. now rewrite En.
Qed.
Print Assumptions C20_xorshift_next.

(** ... and NextSequence writes exactly the values the same number of Next calls would have returned, leaving the same state. *)
Theorem C20_xorshift_sequence : forall seed g target, reachable xs_next (xs_init seed) g ->
  exists vs g', xs_nextSequence target g = Some (vs, g') /\ draws xs_next (List.length target) g = Some (vs, g') /\ Forall unit_interval vs /\ List.length vs = List.length target.
Proof.
  intros seed g target (n & vs & E).
  destruct (draws_good xs_good xs_next xs_next_ok n (xs_init seed) (xs_init_ok seed)) as (vs' & g1 & E' & Hg & _). rewrite E in E'. injection E' as <- <-.
  destruct (draws_good xs_good xs_next xs_next_ok (List.length target) g Hg) as (ws & g2 & Ed & _ & L & F).
  exists ws, g2. split; [now apply xs_nextSequence_ok|]. auto.
Qed.
Print Assumptions C20_xorshift_sequence.

(** Tausworthe, built from a Golang source whose draws are in [0,1). *)
Theorem C20_tausworthe_next : forall (S : Type) (goFloat : S -> R * S) s0, (forall s, unit_interval (fst (goFloat s))) ->
  exists g0, t_init goFloat s0 = Some g0 /\
    forall g, reachable t_next g0 g -> exists v g', t_next g = Some (v, g') /\ unit_interval v /\ reachable t_next g0 g'.
Proof.
  intros S gf s0 Hgf. destruct (t_init_ok gf s0 Hgf) as (g0 & E0 & Hg0 & _). exists g0. split; [exact E0|]. intros g (n & vs & E).
  destruct (draws_good t_good t_next t_next_ok n g0 Hg0) as (vs' & g1 & E' & Hg & _). rewrite E in E'. injection E' as <- <-.
  destruct (t_next_ok g Hg) as (v & g' & En & _ & Hv). exists v, g'. split; [exact En|]. split; [exact Hv|].
  exists (n + 1)%nat, (vs ++ [v]). apply (draws_app _ _ _ _ _ _ _ _ E). cbn [draws]. now rewrite En.
Qed.
Print Assumptions C20_tausworthe_next.

Theorem C20_tausworthe_sequence : forall (S : Type) (goFloat : S -> R * S) s0 g0 g target, (forall s, unit_interval (fst (goFloat s))) ->
  t_init goFloat s0 = Some g0 -> reachable t_next g0 g ->
  exists vs g', t_nextSequence target g = Some (vs, g') /\ draws t_next (List.length target) g = Some (vs, g') /\ Forall unit_interval vs /\ List.length vs = List.length target.
Proof.
  intros S gf s0 g0 g target Hgf E0 (n & vs & E). destruct (t_init_ok gf s0 Hgf) as (g0' & E0' & Hg0 & _). rewrite E0 in E0'. injection E0' as <-.
  destruct (draws_good t_good t_next t_next_ok n g0 Hg0) as (vs' & g1 & E' & Hg & _). rewrite E in E'. injection E' as <- <-.
  destruct (draws_good t_good t_next t_next_ok (List.length target) g Hg) as (ws & g2 & Ed & _ & L & F).
  exists ws, g2. split; [now apply t_nextSequence_ok|]. auto.
Qed.
Print Assumptions C20_tausworthe_sequence.

(** Golang: the wrapper returns the source's draws one per call or one per slot. *)
Theorem C20_golang_sequence : forall (S : Type) (goFloat : S -> R * S) s target, (forall s, unit_interval (fst (goFloat s))) ->
  exists vs s', go_nextSequence goFloat target s = Some (vs, s') /\ draws (go_next goFloat) (List.length target) s = Some (vs, s') /\ Forall unit_interval vs.
Proof.
  intros S gf s target Hgf.
  assert (Hn : forall s : S, True -> exists v s', go_next gf s = Some (v, s') /\ True /\ unit_interval v).
  { intros s1 _. unfold go_next. pose proof (Hgf s1). destruct (gf s1) as [v s2]. exists v, s2. auto. }
  destruct (draws_good (fun _ => True) (go_next gf) Hn (List.length target) s I) as (ws & g2 & Ed & _ & L & F).
  exists ws, g2. split; [now apply go_nextSequence_ok|]. auto.
Qed.
Print Assumptions C20_golang_sequence.

(** Uniform and UniformInt stay in the requested half-open range, whatever backend value in [0,1) they are given. *)
Theorem C20_uniform_range : forall (S : Type) (next : S -> option (R * S)) low high s f s', low < high -> next s = Some (f, s') -> unit_interval f ->
  exists v, uniform next low high s = Some (v, s') /\ low <= v < high.
Proof. exact @uniform_range. Qed.
Print Assumptions C20_uniform_range.

Theorem C20_uniformInt_range : forall (S : Type) (next : S -> option (R * S)) low high s f s', (low < high)%Z -> next s = Some (f, s') -> unit_interval f ->
  exists v, uniformInt next low high s = Some (v, s') /\ (low <= v < high)%Z.
Proof. exact @uniformInt_range. Qed.
Print Assumptions C20_uniformInt_range.

(** UniformAt equals successive Uniform calls, for all three backends. *)
Theorem C20_uniformAt : forall low high target,
  (forall seed g, reachable xs_next (xs_init seed) g ->
     uniformAt xs_nextSequence low high target g = draws (uniform xs_next low high) (List.length target) g) /\
  (forall (S : Type) (goFloat : S -> R * S) s0 g0 g, (forall s, unit_interval (fst (goFloat s))) -> t_init goFloat s0 = Some g0 -> reachable t_next g0 g ->
     uniformAt t_nextSequence low high target g = draws (uniform t_next low high) (List.length target) g) /\
  (forall (S : Type) (goFloat : S -> R * S) s, (forall s, unit_interval (fst (goFloat s))) ->
     uniformAt (go_nextSequence goFloat) low high target s = draws (uniform (go_next goFloat) low high) (List.length target) s).
Proof.
  intros low high target. repeat split.
  - intros seed g Hr. destruct (C20_xorshift_sequence seed g target Hr) as (vs & g' & _ & Hd & _).
    apply (uniformAt_draws xs_next) with (vs := vs) (s' := g'); [exact xs_nextSequence_ok|exact Hd].
  - intros S gf s0 g0 g H1 H2 H3. destruct (C20_tausworthe_sequence S gf s0 g0 g target H1 H2 H3) as (vs & g' & _ & Hd & _).
    apply (uniformAt_draws t_next) with (vs := vs) (s' := g'); [exact t_nextSequence_ok|exact Hd].
  - intros S gf s H1. destruct (C20_golang_sequence S gf s target H1) as (vs & g' & _ & Hd & _).
    apply (uniformAt_draws (go_next gf)) with (vs := vs) (s' := g'); [exact (go_nextSequence_ok gf)|exact Hd].
Qed.
Print Assumptions C20_uniformAt.

(** Non-vacuity: the initial state is reachable, and a seed for which the first value is a retry exists in principle; here a concrete first draw. *)
Example C20_nonvacuous : forall seed, reachable xs_next (xs_init seed) (xs_init seed) /\
  xs_w (xs_step (xs_init 1337)) <> 0%N /\ unit_interval (1 / 2) /\ (0 < 10)%Z.
Proof.
  intros seed. split; [exists O, []; reflexivity|]. split; [vm_compute; discriminate|]. split; [unfold unit_interval; lra|lia].
Qed.

(** ** C21 *)

(** Every coordinate of every point returned in any history of calls (any mixture of dimensions and re-initialisations) is in [0,1). *)
Theorem C21_in_unit_cube : forall cs s0 ps s, sb_new = Some s0 -> history cs s0 = Some (ps, s) -> Forall (Forall unit_interval) ps.
Proof.
  intros cs s0 ps s E0. destruct sb_new_at as (s0' & E0' & Hin & H0). rewrite E0 in E0'. injection E0' as <-.
  assert (Hs : sb_safe s0 /\ sb_isInit s0 = true).
  { destruct (H0 6%nat (le_n 6)) as (_ & H1 & H2 & H3). split.
    - split; [assumption|]. split; [assumption|]. intros k Hk. rewrite H3 by assumption. reflexivity.
    - exact Hin. }
  clear E0 H0 Hin. revert s0 Hs ps. induction cs as [|[dim|] cs IH]; intros s0 [Hs Hi] ps E; cbn [history] in E.
  - injection E as <- <-. constructor.
  - destruct (sb_next dim s0) as [[p s1]|] eqn:En; [|discriminate]. destruct (history cs s1) as [[qs s2]|] eqn:Eh; [|discriminate].
    injection E as <- <-. destruct (sb_next_safe _ _ _ _ Hs En) as (Hs1 & _ & Hp). constructor; [assumption|].
    apply (IH s1); [|assumption]. split; [assumption|]. unfold sb_next in En.
    destruct (_ <? _)%nat; [discriminate|]. destruct (_ <=? _)%N; [discriminate|].
    match type of En with match ?l with _ => _ end = _ => destruct l as [[t ix]|]; [|discriminate] end. now injection En as <- <-.
  - destruct (sb_init s0) as [s1|] eqn:En; [|discriminate]. apply (IH s1); [|assumption]. split; [now apply (sb_init_safe s0)|].
    unfold sb_init in En. rewrite Hi in En. now injection En as <-.
Qed.
Print Assumptions C21_in_unit_cube.

(** All points of one dimension, any number of calls up to 2^30 - 2: coordinates in [0,1), and no coordinate ever takes the same value twice. *)
Theorem C21_points_distinct : forall dim n s0, (dim <= 6)%nat -> sb_new = Some s0 -> (N.of_nat n + 2 <= 2 ^ 30)%N ->
  exists ps s, points dim n s0 = Some (ps, s) /\ List.length ps = n /\
    (forall i k, (i < n)%nat -> (k < dim)%nat -> unit_interval (nth k (nth i ps []) 0)) /\
    (forall i, (i < n)%nat -> List.length (nth i ps []) = dim) /\
    (forall i j k, (i < j < n)%nat -> (k < dim)%nat -> nth k (nth i ps []) 0 <> nth k (nth j ps []) 0).
Proof.
  intros dim n s0 Hd E0 Hn. destruct sb_new_at as (s0' & E0' & Hin & H0). rewrite E0 in E0'. injection E0' as <-.
  change (2 ^ 30)%N with 1073741824%N in Hn.
  destruct (points_ok dim Hd n 0 s0 (H0 dim Hd)) as (ps & s & Ep & _ & L & H). { change (2 ^ 30)%N with 1073741824%N. lia. }
  assert (Hz : forall i, (0 < i <= n)%nat -> (zeroIdx (N.of_nat i) < 30)%nat).
  { intros i Hi. apply zeroIdx_small. change (2 ^ 30)%N with 1073741824%N. lia. }
  exists ps, s. split; [exact Ep|]. split; [exact L|]. split; [|split].
  - intros i k Hi Hk. destruct (H i Hi) as [_ ->]; [|assumption]. apply fac_range, X_range; [lia|]. intros j Hj. apply Hz. lia.
  - intros i Hi. apply (H i Hi).
  - intros i j k Hij Hk. destruct (H i ltac:(lia)) as [_ ->]; [|assumption]. destruct (H j ltac:(lia)) as [_ ->]; [|assumption].
    intros E. apply fac_inj in E. revert E. apply X_distinct; [lia|lia|]. intros a Ha. apply Hz. lia.
Qed.
Print Assumptions C21_points_distinct.

(** After 2^30 - 2 points the next call panics, and so does any request for more than six dimensions. *)
Theorem C21_exhaustion_panics : forall dim n s0 ps s, (1 <= dim <= 6)%nat -> sb_new = Some s0 -> (N.of_nat n + 2 = 2 ^ 30)%N ->
  points dim n s0 = Some (ps, s) -> sb_next dim s = None.
Proof.
  intros dim n s0 ps s Hd E0 Hn Ep. destruct sb_new_at as (s0' & E0' & Hin & H0). rewrite E0 in E0'. injection E0' as <-.
  destruct (points_ok dim (proj2 Hd) n 0 s0 (H0 dim (proj2 Hd))) as (ps' & s' & Ep' & Hs' & _). { change (2 ^ 30)%N with 1073741824%N in *. lia. }
  rewrite Ep in Ep'. injection Ep' as <- <-. now apply (exhausted dim n).
Qed.
Print Assumptions C21_exhaustion_panics.

Theorem C21_too_many_dimensions_panic : forall dim s, (6 < dim)%nat -> sb_next dim s = None.
Proof. intros dim s H. unfold sb_next. now rewrite (proj2 (Nat.ltb_lt maxDim dim)) by (unfold maxDim; lia). Qed.
Print Assumptions C21_too_many_dimensions_panic.

(** The property's "distinct calls never repeat a point in a dimension" needs all calls to use the same dimension: asking for
    2, 2, 1 and 2 coordinates returns the same second coordinate in the first and fourth calls. *)
Theorem C94_mixed_dimensions_refuted : exists s0 p1 s1 p2 s2 p3 s3 p4 s4 x,
  sb_new = Some s0 /\ sb_next 2 s0 = Some (p1, s1) /\ sb_next 2 s1 = Some (p2, s2) /\ sb_next 1 s2 = Some (p3, s3) /\ sb_next 2 s3 = Some (p4, s4) /\
  nth_error p1 1 = Some x /\ nth_error p4 1 = Some x.
Proof.
  do 10 eexists. split; [cbv -[Rmult Rdiv IZR]; reflexivity|]. repeat (split; [cbv -[Rmult Rdiv IZR]; reflexivity|]). cbv -[Rmult Rdiv IZR]. reflexivity.
Qed.
Print Assumptions C94_mixed_dimensions_refuted.

(** Calling Init again does not restart the sequence: it clears the coordinates but not the counter, so the next point is not the first point. *)
Theorem C21_reinit_does_not_restart : exists s0 p1 s1 s2 q s3, sb_new = Some s0 /\ sb_next 1 s0 = Some (p1, s1) /\
  sb_init s1 = Some s2 /\ sb_next 1 s2 = Some (q, s3) /\ p1 <> q.
Proof.
  do 6 eexists. repeat (split; [cbv -[Rmult Rdiv IZR]; reflexivity|]).
  intros E. injection E as E. lra.
Qed.
Print Assumptions C21_reinit_does_not_restart.

Example C21_nonvacuous : exists s0, sb_new = Some s0 /\ (exists ps s, points 6 1000 s0 = Some (ps, s) /\ List.length ps = 1000%nat).
Proof.
  destruct sb_new_at as (s0 & E & _ & _). exists s0. split; [exact E|].
  destruct (C21_points_distinct 6 1000 s0 (le_n 6) E) as (ps & s & Ep & L & _).
  - apply N.leb_le. vm_compute. reflexivity.
  - exists ps, s. auto.
Qed.
