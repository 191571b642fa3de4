(** * C197: EvalAll is Eval at every point. *)
From Verif Require Import GoBase GoBaseFacts RealBase LoopBase LoopFacts InterpModel InterpSpec EvalAllModel EvalAllProofs InterpProofs8 Props_Interp.
From Coq Require Import Reals List Lia Lra.
Import List ListNotations.
Local Open Scope nat_scope.

(** The i-th point: the i-th elements of the input slices. *)
Definition point (mem : list R) (ins : list window) (i : nat) : list R := map (fun s => nth (w_off s + i) mem 0%R) ins.
(** The slices are in the memory, the other coordinates are not shorter than the first, and the output does not begin inside an input (it may be the input
    itself, or a part of memory before it that overlaps it). *)
Definition batch_ok (ins : list window) (outs : list window) (mem : list R) (n : nat) : Prop :=
  Forall (fun s => n <= w_len s /\ w_off s + w_len s <= List.length mem) ins /\
  forall out rest, outs = out :: rest -> w_off out + w_len out <= List.length mem /\ Forall (fun s => w_off out <= w_off s \/ w_off s + n <= w_off out) ins.
(** A batch evaluator [all] for points with [dim] coordinates agrees with the function [f]. With an output slice, the values are written to its beginning and
    it is returned; without one, a new slice is returned. Nothing else is changed. It fails exactly if the output slice is too short or a point is refused. *)
Definition pointwise {St} (all : St -> list window -> list window -> list R -> option (window * (St * list R))) (dim : nat) (s : St) (f : list R -> option R) : Prop :=
  forall ins outs mem x rest, ins = x :: rest -> List.length ins = dim -> batch_ok ins outs mem (w_len x) ->
  let n := w_len x in
  match all s ins outs mem with
  | Some (out, (_, mem')) =>
      (forall i, i < n -> Some (nth (w_off out + i) mem' 0%R) = f (point mem ins i)) /\ n <= w_len out /\
      (forall j, j < List.length mem -> ~ (w_off out <= j < w_off out + n) -> nth j mem' 0%R = nth j mem 0%R) /\
      match outs with
      | o :: _ => out = o /\ List.length mem' = List.length mem
      | [] => out = Win (List.length mem) n /\ List.length mem' = List.length mem + n
      end
  | None => (exists i, i < n /\ f (point mem ins i) = None) \/ (exists o os, outs = o :: os /\ w_len o < n)
  end.

Lemma pointwise_any {St} (eval : St -> list R -> St * option R) f (Inv : St -> Prop) dim s :
  (forall s a, Inv s -> snd (eval s a) = f a /\ (f a <> None -> Inv (fst (eval s a)))) -> Inv s -> pointwise (eval_all eval) dim s f.
Proof.
  intros He Hs ins outs mem x rest E _ (Hi & Ho). cbv zeta. unfold eval_all. destruct outs as [|o os].
  - rewrite E. rewrite <- E. set (mem2 := mem ++ repeat 0%R (w_len x)).
    assert (L2 : List.length mem2 = List.length mem + w_len x) by (unfold mem2; rewrite app_length, repeat_length; reflexivity).
    assert (P2 : forall i, i < w_len x -> map (fun s => nth (w_off s + i) mem2 0%R) ins = point mem ins i).
    { intros i Hlt. apply map_ext_in. intros w Hw. unfold mem2. apply app_nth1. rewrite Forall_forall in Hi. specialize (Hi w Hw). lia. }
    assert (H1 : Forall (fun s => w_len x <= w_len s /\ w_off s + w_len s <= List.length mem2) ins).
    { rewrite Forall_forall in *. intros w Hw. specialize (Hi w Hw). lia. }
    assert (H3 : Forall (fun s => w_off (Win (List.length mem) (w_len x)) <= w_off s \/ w_off s + w_len x <= w_off (Win (List.length mem) (w_len x))) ins).
    { rewrite Forall_forall in *. intros w Hw. specialize (Hi w Hw). cbn [w_off]. lia. }
    pose proof (loop_spec eval f Inv He ins (Win (List.length mem) (w_len x)) mem2 (w_len x) H1 ltac:(cbn [w_off w_len]; lia) H3 s Hs (w_len x) (le_n _)) as LS.
    unfold eval_into. rewrite E in LS |- *. destruct (loop (w_len x) _ (s, mem2)) as [[s' mem']|].
    + rewrite <- E in LS. destruct LS as ((I1 & I2 & I3 & I4) & _). cbn [fst snd w_off w_len] in *. split; [|split; [|split; [|split]]].
      * intros i Hlt. rewrite <- E. rewrite (I3 i Hlt). f_equal. apply P2. exact Hlt.
      * lia.
      * intros j Hj Hn. rewrite I4 by exact Hn. unfold mem2. apply app_nth1. exact Hj.
      * reflexivity.
      * lia.
    + rewrite <- E in LS. destruct LS as (i & Hlt & [H|H]); cbn [w_len] in *; [|lia]. left. exists i. split; [exact Hlt|]. rewrite P2 in H by exact Hlt. rewrite <- E. exact H.
  - destruct (Ho o os eq_refl) as (H2 & H3).
    pose proof (loop_spec eval f Inv He ins o mem (w_len x) Hi H2 H3 s Hs (w_len x) (le_n _)) as LS.
    unfold eval_into. rewrite E in LS |- *. destruct (loop (w_len x) _ (s, mem)) as [[s' mem']|].
    + rewrite <- E in LS. destruct LS as ((I1 & I2 & I3 & I4) & Hl). cbn [fst snd] in *. split; [|split; [|split; [|split]]].
      * intros i Hlt. rewrite <- E. apply I3. exact Hlt.
      * exact Hl.
      * intros j Hj Hn. apply I4. exact Hn.
      * reflexivity.
      * exact I2.
    + rewrite <- E in LS. destruct LS as (i & Hlt & [H|H]); [left|right].
      * exists i. split; [exact Hlt|]. rewrite <- E. exact H.
      * exists o, os. split; [reflexivity|lia].
Qed.

Definition at1 (g : R -> option R) (a : list R) : option R := match a with [x] => g x | _ => None end.
Definition at2 (g : R -> R -> option R) (a : list R) : option R := match a with [x; y] => g x y | _ => None end.
Definition at3 (g : R -> R -> R -> option R) (a : list R) : option R := match a with [x; y; z] => g x y z | _ => None end.

Theorem C197_linear : forall l, pointwise LinearEvalAll 1 l (at1 (LinearEval l)).
Proof. intros l. apply (pointwise_any linear_eval _ (fun s => s = l)); [|reflexivity]. intros s [|x [|y a]] ->; cbn; auto. Qed.
Theorem C197_bilinear : forall l, pointwise BiLinearEvalAll 2 l (at2 (BiLinearEval l)).
Proof. intros l. apply (pointwise_any bilinear_eval _ (fun s => s = l)); [|reflexivity]. intros s [|x [|y [|z a]]] ->; cbn [bilinear_eval at2 fst snd]; auto. Qed.
Theorem C197_trilinear : forall l, pointwise TriLinearEvalAll 3 l (at3 (TriLinearEval l)).
Proof. intros l. apply (pointwise_any trilinear_eval _ (fun s => s = l)); [|reflexivity]. intros s [|x [|y [|z [|w a]]]] ->; cbn [trilinear_eval at3 fst snd]; auto. Qed.
Theorem C197_spline : forall l, pointwise SplineEvalAll 1 l (at1 (SplineEval l)).
Proof. intros l. apply (pointwise_any spline_eval _ (fun s => s = l)); [|reflexivity]. intros s [|x [|y a]] ->; cbn [spline_eval at1 fst snd]; auto. Qed.
(** The cubic interpolators keep caches from one point to the next: after any earlier queries the values are those of the new interpolator. *)
Theorem C197_bicubic : forall xs ys vals bi qs bi', NewBiCubic xs ys vals = Some bi -> biRun bi qs = Some bi' ->
  pointwise BiCubicEvalAll 2 bi' (at2 (fun x y => snd (BiCubicEval bi x y))).
Proof.
  intros xs ys vals bi qs bi' H0 HR. destruct (bi_init _ _ _ _ H0) as (yS & HI).
  apply (pointwise_any bicubic_eval _ (biInv xs yS)); [|exact (bi_run _ _ _ _ _ HI HR)].
  intros s [|x [|y [|z a]]] Hs; cbn [bicubic_eval at2 fst snd]; auto; try (split; [reflexivity|congruence]).
  destruct (bi_step _ _ _ x y Hs) as (E & H). destruct (bi_step _ _ _ x y HI) as (E' & _). rewrite E' , <- E. split; [reflexivity|exact H].
Qed.
Theorem C197_tricubic : forall xs ys zs vals t qs t', NewTriCubic xs ys zs vals = Some t -> triRun t qs = Some t' ->
  pointwise TriCubicEvalAll 3 t' (at3 (fun x y z => snd (TriCubicEval t x y z))).
Proof.
  intros xs ys zs vals t qs t' H0 HR. destruct (tri_init _ _ _ _ _ H0) as (zS & HI).
  apply (pointwise_any tricubic_eval _ (triInv xs ys zS)); [|exact (tri_run _ _ _ _ _ _ HI HR)].
  intros s [|x [|y [|z [|w a]]]] Hs; cbn [tricubic_eval at3 fst snd]; auto; try (split; [reflexivity|congruence]).
  destruct (tri_step _ _ _ _ x y z Hs) as (E & H). destruct (tri_step _ _ _ _ x y z HI) as (E' & _). rewrite E' , <- E. split; [reflexivity|exact H].
Qed.
Print Assumptions C197_linear.
Print Assumptions C197_bilinear.
Print Assumptions C197_trilinear.
Print Assumptions C197_spline.
Print Assumptions C197_bicubic.
Print Assumptions C197_tricubic.

(** An output that begins inside an input is read back: the interpolator of 1 - x on [0, 1] at the points 0, 0, with the output one element further on. *)
Lemma eval_1mx : exists l, NewLinear [0; 1]%R [1; 0]%R = Some l /\ LinearEval l 0 = Some 1%R /\ LinearEval l 1 = Some 0%R.
Proof.
  destruct (C15_linear [0; 1]%R [1; 0]%R) as (l & E & H); [cbn; lia| |reflexivity|].
  - intros [|[|i]] [|[|j]] a b Hij Ha Hb; cbn in *; try lia; try discriminate; try (destruct i; discriminate); try (destruct j; discriminate). injection Ha as <-. injection Hb as <-. lra.
  - exists l. split; [exact E|]. destruct H as [Hn _ _ _]. split; [apply (Hn 0%nat)|apply (Hn 1%nat)]; reflexivity.
Qed.
Theorem C197_overlap_refuted : exists l mem ins out s' mem', NewLinear [0; 1]%R [1; 0]%R = Some l /\ mem = [0; 0; 5]%R /\ ins = Win 0 2 /\ out = Win 1 2 /\
  LinearEvalAll l [ins] [out] mem = Some (out, (s', mem')) /\ nth (w_off out + 1) mem' 0%R = 0%R /\ LinearEval l (nth (w_off ins + 1) mem 0%R) = Some 1%R.
Proof.
  destruct eval_1mx as (l & E & E0 & E1). exists l, [0; 0; 5]%R, (Win 0 2), (Win 1 2), l, [0; 1; 0]%R. split; [exact E|]. repeat (split; [reflexivity|]).
  split; [|split; [reflexivity|exact E0]].
  cbv [LinearEvalAll eval_all eval_into eval_step gets get put w_len w_off loop Nat.ltb Nat.leb Nat.add rd wr upd nth_error linear_eval List.length repeat app option_map]. rewrite E0. cbv [LinearEvalAll eval_all eval_into eval_step gets get put w_len w_off loop Nat.ltb Nat.leb Nat.add rd wr upd nth_error linear_eval List.length repeat app option_map].
rewrite E1. reflexivity.
Qed.
Print Assumptions C197_overlap_refuted.

(** Evaluating in place, and into a new slice. *)
Example C197_nonvacuous : exists l m1 m2, NewLinear [0; 1]%R [1; 0]%R = Some l /\ batch_ok [Win 0 2] [Win 0 2] [0; 1]%R 2 /\ batch_ok [Win 0 2] [] [0; 1]%R 2 /\
  LinearEvalAll l [Win 0 2] [Win 0 2] [0; 1]%R = Some (Win 0 2, (l, m1)) /\ m1 = [1; 0]%R /\
  LinearEvalAll l [Win 0 2] [] [0; 1]%R = Some (Win 2 2, (l, m2)) /\ m2 = [0; 1; 1; 0]%R.
Proof.
  destruct eval_1mx as (l & E & E0 & E1). exists l, [1; 0]%R, [0; 1; 1; 0]%R. split; [exact E|]. split; [|split].
  - split; [repeat constructor; cbn; lia|]. intros out rest H. injection H as <- <-. cbn. split; [lia|]. repeat constructor.
  - split; [repeat constructor; cbn; lia|]. discriminate.
  - split; [|split; [reflexivity|split; [|reflexivity]]]; cbv [LinearEvalAll eval_all eval_into eval_step gets get put w_len w_off loop Nat.ltb Nat.leb Nat.add rd wr upd nth_error linear_eval List.length repeat app option_map]; rewrite E0; cbv [LinearEvalAll eval_all eval_into eval_step gets get put w_len w_off loop Nat.ltb Nat.leb Nat.add rd wr upd nth_error linear_eval List.length repeat app option_map]; rewrite E1; reflexivity.
Qed.
