(** * Proofs about stats mode: the particles of a file. *)
From Verif Require Import StatsRunModel StatsSpec CmdProofs LoopFacts ShellProofs ShellProofs2 LosProofs9 InterpProofs StatsProofs2.
From Coq Require Import Reals Lra Lia ZArith List Permutation Sorted Bool.
Import List ListNotations.
Local Open Scope R_scope.

Lemma wrap_id x t : Rabs x <= t -> wrap x t = x.
Proof. intros H. unfold wrap. apply Rabs_le_inv in H || (pose proof (Rle_abs x); pose proof (Rle_abs (- x)) as Q; rewrite Rabs_Ropp in Q). destruct (Rltb_spec t x); [lra|]. destruct (Rltb_spec x (- t)); lra. Qed.
Lemma displacement_unwrapped L c x : unwrapped L c x -> displacement x c L = sub3 x c.
Proof.
  destruct x as [[x y] z], c as [[cx cy] cz]. unfold unwrapped, displacement, sub3. intros (A & B & C). rewrite !wrap_id by assumption. reflexivity.
Qed.

(** The values of the chosen particles with the indices l. *)
Definition picks {V} (b : vec -> bool) (xs : list vec) (vals : list V) (l : list nat) : list V :=
  flat_map (fun i => match nth_error xs i, nth_error vals i with Some x, Some v => if b x then [v] else [] | _, _ => [] end) l.

Lemma picks_shift {V} b x (v : V) xs vals l : picks b (x :: xs) (v :: vals) (map S l) = picks b xs vals l.
Proof. unfold picks. induction l as [|i l IH]; [reflexivity|]. cbn [map flat_map nth_error]. rewrite IH. reflexivity. Qed.
Lemma picks_all {V} (P : vec3 -> Prop) b (xs : list vec) : (forall x, In x xs -> b x = true <-> P x) -> forall vals : list V, length vals = length xs ->
  picked P (combine xs vals) (picks b xs vals (seq 0 (length xs))).
Proof.
  induction xs as [|x xs IH]; intros Hb [|v vals] L; try discriminate; [constructor|]. cbn [length seq combine].
  assert (E : picks b (x :: xs) (v :: vals) (0%nat :: seq 1 (length xs)) = (if b x then [v] else []) ++ picks b xs vals (seq 0 (length xs))).
  { rewrite <- seq_shift. unfold picks at 1. cbn [flat_map nth_error]. f_equal. apply (picks_shift b x v). }
  rewrite E. injection L as L. specialize (IH (fun y Hy => Hb y (or_intror Hy)) vals L). pose proof (Hb x (or_introl eq_refl)) as Hx. destruct (b x).
  - apply pk_in; [apply Hx; reflexivity|exact IH].
  - apply pk_out; [intros K; apply Hx in K; discriminate|exact IH].
Qed.
Lemma picked_fun {V} P (l : list (vec3 * V)) L : picked P l L -> forall L', picked P l L' -> L = L'.
Proof. induction 1 as [|x v l L Hx _ IH|x v l L Hx _ IH]; intros L' K; inversion K; subst; try contradiction; auto. f_equal. auto. Qed.
Lemma picked_app {V} P (l1 l2 : list (vec3 * V)) L1 L2 : picked P l1 L1 -> picked P l2 L2 -> picked P (l1 ++ l2) (L1 ++ L2).
Proof. induction 1; intros K; cbn; auto; constructor; auto. Qed.

Lemma total_app a b : total (a ++ b) = total a + total b.
Proof. unfold total. induction a as [|x a IH]; cbn [app fold_right]; [lra|]. rewrite IH. lra. Qed.
Lemma total_perm a b : Permutation a b -> total a = total b.
Proof. unfold total. induction 1; cbn [fold_right]; lra. Qed.

Section File.
Variables (s : Shell) (c : vec) (rLow rHigh : R) (f : PFile).
Definition in_test (x : vec) : bool := let '(dx, dy, dz) := displacement x c (f_tw f) in mass_inside s rLow rHigh dx dy dz.
Lemma mass_fold l : (forall i, In i l -> (i < length (f_xs f))%nat) -> length (f_ms f) = length (f_xs f) -> forall a,
  fold_left (mass_step s c rLow rHigh f) l (Some a) = Some (a + total (picks in_test (f_xs f) (f_ms f) l)).
Proof.
  intros Hl L. induction l as [|i l IH]; intros a; [cbn; f_equal; unfold total; cbn; lra|]. cbn [fold_left]. pose proof (Hl i (or_introl eq_refl)) as Hi.
  destruct (nth_error (f_xs f) i) as [x|] eqn:Ex; [|apply nth_error_None in Ex; lia]. destruct (nth_error (f_ms f) i) as [m|] eqn:Em; [|apply nth_error_None in Em; lia].
  assert (E : mass_step s c rLow rHigh f (Some a) i = Some (a + total (if in_test x then [m] else []))).
  { unfold mass_step, in_test, rd. rewrite Ex, Em. destruct (displacement x c (f_tw f)) as [[dx dy] dz]. destruct (mass_inside s rLow rHigh dx dy dz); cbn; f_equal; lra. }
  rewrite E, IH by (intros j Hj; apply Hl; right; exact Hj). f_equal. unfold picks. cbn [flat_map]. rewrite Ex, Em, total_app. lra.
Qed.

Variables (ids : list Z) (r width : R).
Definition keep_test (x : vec) : bool := let '(dx, dy, dz) := displacement x c (f_tw f) in shell_keep s r rLow rHigh width dx dy dz.
Lemma ids_fold l : (forall i, In i l -> (i < length (f_xs f))%nat) -> length ids = length (f_xs f) -> forall a,
  fold_left (ids_step s c r rLow rHigh width (f, ids)) l (Some a) = Some (a ++ picks keep_test (f_xs f) ids l).
Proof.
  intros Hl L. induction l as [|i l IH]; intros a; [cbn; rewrite app_nil_r; reflexivity|]. cbn [fold_left]. pose proof (Hl i (or_introl eq_refl)) as Hi.
  destruct (nth_error (f_xs f) i) as [x|] eqn:Ex; [|apply nth_error_None in Ex; lia]. destruct (nth_error ids i) as [m|] eqn:Em; [|apply nth_error_None in Em; lia].
  assert (E : ids_step s c r rLow rHigh width (f, ids) (Some a) i = Some (a ++ (if keep_test x then [m] else []))).
  { unfold ids_step, keep_test, rd. cbn [fst snd]. rewrite Ex, Em. destruct (displacement x c (f_tw f)) as [[dx dy] dz]. destruct (shell_keep s r rLow rHigh width dx dy dz); [reflexivity|now rewrite app_nil_r]. }
  rewrite E, IH by (intros j Hj; apply Hl; right; exact Hj). f_equal. unfold picks. cbn [flat_map]. rewrite Ex, Em. rewrite <- app_assoc. reflexivity.
Qed.
End File.

Lemma share_lt workers len w i : (0 < workers)%nat -> In i (strided len w workers len) -> (i < len)%nat.
Proof. intros Hw Hi. apply strided_spec in Hi; [|lia|lia]. tauto. Qed.
Lemma keep_1 n : forall k, filter (fun i => (i mod 1 =? 0)%nat) (seq k n) = seq k n.
Proof. induction n as [|n IH]; intros k; [reflexivity|]. cbn [seq filter]. rewrite IH, Nat.mod_1_r. reflexivity. Qed.
Lemma shares_all workers len arrive : (0 < workers)%nat -> Permutation arrive (seq 0 workers) ->
  Permutation (flat_map (fun w => strided len w workers len) arrive) (seq 0 len).
Proof.
  intros Hw Pa. rewrite (Permutation_flat_map _ Pa). pose proof (shares_partition workers 1 len Hw Nat.lt_0_1) as P. unfold share_of in P.
  assert (E : forall l, flat_map (fun w => strided len (w * 1) (workers * 1) len) l = flat_map (fun w => strided len w workers len) l).
  { intros l. induction l as [|w l IH]; [reflexivity|]. cbn [flat_map]. rewrite IH, !Nat.mul_1_r. reflexivity. }
  rewrite E in P. rewrite P. unfold kept. rewrite keep_1. reflexivity.
Qed.
Lemma picks_perm {V} b xs (vals : list V) l l' : Permutation l l' -> Permutation (picks b xs vals l) (picks b xs vals l').
Proof. apply Permutation_flat_map. Qed.

Section File2.
Variables (s : Shell) (c : vec) (rLow rHigh : R) (f : PFile) (workers : nat) (arrive : list nat).
Hypothesis Hw : (0 < workers)%nat.
Hypothesis Ha : Permutation arrive (seq 0 workers).
Hypothesis Lm : length (f_ms f) = length (f_xs f).

Lemma mass_contained_all : mass_contained s c rLow rHigh f workers arrive = Some (total (picks (in_test s c rLow rHigh f) (f_xs f) (f_ms f) (seq 0 (length (f_xs f))))).
Proof.
  unfold mass_contained. set (n := length (f_xs f)).
  assert (G : forall l a, fold_left (fun o w => match o with Some sum => match mass_worker s c rLow rHigh f workers w with Some m => Some (sum + m) | None => None end | None => None end) l (Some a)
    = Some (a + total (picks (in_test s c rLow rHigh f) (f_xs f) (f_ms f) (flat_map (fun w => strided n w workers n) l)))).
  { induction l as [|w l IH]; intros a; [cbn; f_equal; unfold total; cbn; lra|]. cbn [fold_left flat_map]. unfold mass_worker at 2. change (List.length (f_xs f)) with n.
    rewrite mass_fold; [|intros i Hi; eapply share_lt; eauto|exact Lm]. rewrite IH. f_equal. unfold picks. rewrite flat_map_app, total_app. lra. }
  rewrite G. f_equal. rewrite Rplus_0_l. apply total_perm, picks_perm. apply shares_all; assumption.
Qed.

Variables (ids : list Z) (r width : R).
Hypothesis Li : length ids = length (f_xs f).
Lemma append_all out : exists l, append_shell_particles s c r rLow rHigh width (f, ids) workers arrive out = Some (out ++ l) /\
  Permutation l (picks (keep_test s c rLow rHigh f r width) (f_xs f) ids (seq 0 (length (f_xs f)))).
Proof.
  unfold append_shell_particles. set (n := length (f_xs f)).
  assert (G : forall l a, fold_left (fun o w => match o with Some out => match ids_worker s c r rLow rHigh width (f, ids) workers w with Some i => Some (out ++ i) | None => None end | None => None end) l (Some a)
    = Some (a ++ picks (keep_test s c rLow rHigh f r width) (f_xs f) ids (flat_map (fun w => strided n w workers n) l))).
  { induction l as [|w l IH]; intros a; [cbn; rewrite app_nil_r; reflexivity|]. cbn [fold_left flat_map]. unfold ids_worker at 2. cbn [fst snd]. change (List.length (f_xs f)) with n.
    rewrite ids_fold; [|intros i Hi; eapply share_lt; eauto|exact Li]. cbn [app]. rewrite IH. f_equal. unfold picks. rewrite flat_map_app, <- app_assoc. reflexivity. }
  eexists. split; [apply G|]. apply picks_perm. apply shares_all; assumption.
Qed.
End File2.
