(** * BiCubic and TriCubic: the caches are transparent; table values are reproduced. *)
From Coq Require Import Lra Psatz.
From Verif Require Import GoBase RealBase InterpModel InterpSpec InterpProofs InterpProofs2 InterpProofs3 InterpProofs4 InterpProofs5 InterpProofs6.
Local Open Scope R_scope.
Local Open Scope list_scope.

(** A history of queries none of which panicked. *)
Fixpoint biRun (bi : BiCubic) (qs : list (R * R)) : option BiCubic :=
  match qs with
  | [] => Some bi
  | (x, y) :: qs' => match BiCubicEval bi x y with (bi', Some _) => biRun bi' qs' | (_, None) => None end
  end.
Fixpoint triRun (t : TriCubic) (qs : list (R * R * R)) : option TriCubic :=
  match qs with
  | [] => Some t
  | (x, y, z) :: qs' => match TriCubicEval t x y z with (t', Some _) => triRun t' qs' | (_, None) => None end
  end.

Definition biInv (xs : list R) (yS : list Spline) (bi : BiCubic) : Prop :=
  bc_xs bi = xs /\ bc_ySplines bi = yS /\ bindo (evalSplines yS (bc_lastY bi)) (NewSpline xs) = Some (bc_xSpline bi).
Definition biPure (xs : list R) (yS : list Spline) (x y : R) : option R :=
  bindo (bindo (evalSplines yS y) (NewSpline xs)) (fun sx => SplineEval sx x).

Lemma bi_step xs yS bi x y : biInv xs yS bi -> snd (BiCubicEval bi x y) = biPure xs yS x y /\
  (snd (BiCubicEval bi x y) <> None -> biInv xs yS (fst (BiCubicEval bi x y))).
Proof.
  intros (E1 & E2 & E3). unfold BiCubicEval, biPure. destruct (Reqb y (bc_lastY bi)) eqn:E.
  - apply Reqb_true in E. subst y. rewrite E3. cbn. split; [reflexivity|]. intros _. repeat split; assumption.
  - cbv zeta. rewrite E1, E2. destruct (bindo (evalSplines yS y) (NewSpline xs)) as [sx|] eqn:Es; cbn.
    + split; [reflexivity|]. intros _. repeat split; auto.
    + split; [reflexivity|]. congruence.
Qed.

Lemma bi_run xs yS : forall qs bi bi', biInv xs yS bi -> biRun bi qs = Some bi' -> biInv xs yS bi'.
Proof.
  induction qs as [|[x y] qs IH]; intros bi bi' HI HR; cbn in HR; [congruence|].
  destruct (bi_step xs yS bi x y HI) as [_ H]. destruct (BiCubicEval bi x y) as [b' [v|]]; [|discriminate].
  apply (IH b'); [apply H; cbn; discriminate|exact HR].
Qed.

Lemma bi_init xs ys vals bi : NewBiCubic xs ys vals = Some bi -> exists yS, biInv xs yS bi.
Proof.
  unfold NewBiCubic. destruct (negb _); [discriminate|]. intros H. apply bindo_some in H. destruct H as (yS & _ & H).
  apply bindo_some in H. destruct H as (y0 & _ & H). apply bindo_some in H. destruct H as (xv & Hv & H).
  apply bindo_some in H. destruct H as (sx & Hs & H). injection H as <-. exists yS. repeat split. cbn. rewrite Hv. exact Hs.
Qed.

Theorem bi_transparent xs ys vals bi qs bi' x y : NewBiCubic xs ys vals = Some bi -> biRun bi qs = Some bi' ->
  snd (BiCubicEval bi' x y) = snd (BiCubicEval bi x y).
Proof.
  intros H0 HR. destruct (bi_init _ _ _ _ H0) as (yS & HI). pose proof (bi_run _ _ _ _ _ HI HR) as HI'.
  rewrite (proj1 (bi_step _ _ _ x y HI)), (proj1 (bi_step _ _ _ x y HI')). reflexivity.
Qed.

(** ** TriCubic *)
Definition triInv (xs ys : list R) (zS : list (list Spline)) (t : TriCubic) : Prop :=
  tc_xs t = xs /\ tc_ys t = ys /\ tc_zSplines t = zS /\ ySplinesAt ys zS (tc_lastZ t) = Some (tc_ySplines t) /\
  xSplineAt xs (tc_ySplines t) (tc_lastY t) = Some (tc_xSpline t).
Definition triPure (xs ys : list R) (zS : list (list Spline)) (x y z : R) : option R :=
  bindo (ySplinesAt ys zS z) (fun yS => bindo (xSplineAt xs yS y) (fun sx => SplineEval sx x)).

Lemma tri_step xs ys zS t x y z : triInv xs ys zS t -> snd (TriCubicEval t x y z) = triPure xs ys zS x y z /\
  (snd (TriCubicEval t x y z) <> None -> triInv xs ys zS (fst (TriCubicEval t x y z))).
Proof.
  intros (E1 & E2 & E3 & E4 & E5). unfold TriCubicEval, triPure. rewrite E1, E2, E3.
  destruct (Reqb z (tc_lastZ t)) eqn:Ez.
  - apply Reqb_true in Ez. subst z. rewrite andb_true_r, E4. cbn [bindo]. destruct (Reqb y (tc_lastY t)) eqn:Ey.
    + apply Reqb_true in Ey. subst y. rewrite E5. cbn. split; [reflexivity|]. intros _. repeat split; assumption.
    + cbv zeta. destruct (xSplineAt xs (tc_ySplines t) y) as [sx|] eqn:Es; cbn.
      * split; [reflexivity|]. intros _. repeat split; cbn; auto.
      * split; [reflexivity|]. congruence.
  - rewrite andb_false_r. cbv zeta. destruct (ySplinesAt ys zS z) as [yS|] eqn:Ey; cbn [bindo].
    + destruct (xSplineAt xs yS y) as [sx|] eqn:Es; cbn.
      * split; [reflexivity|]. intros _. repeat split; cbn; auto.
      * split; [reflexivity|]. congruence.
    + cbn. split; [reflexivity|]. congruence.
Qed.

Lemma tri_run xs ys zS : forall qs t t', triInv xs ys zS t -> triRun t qs = Some t' -> triInv xs ys zS t'.
Proof.
  induction qs as [|[[x y] z] qs IH]; intros t t' HI HR; cbn in HR; [congruence|].
  destruct (tri_step xs ys zS t x y z HI) as [_ H]. destruct (TriCubicEval t x y z) as [b' [v|]]; [|discriminate].
  apply (IH b'); [apply H; cbn; discriminate|exact HR].
Qed.

Lemma tri_init xs ys zs vals t : NewTriCubic xs ys zs vals = Some t -> exists zS, triInv xs ys zS t.
Proof.
  unfold NewTriCubic. cbv zeta. destruct (negb _); [discriminate|]. intros H. apply bindo_some in H. destruct H as (zS & _ & H).
  apply bindo_some in H. destruct H as (z0 & _ & H). apply bindo_some in H. destruct H as (yS & Hy & H).
  apply bindo_some in H. destruct H as (y0 & _ & H). apply bindo_some in H. destruct H as (sx & Hs & H). injection H as <-.
  exists zS. repeat split; cbn; assumption.
Qed.

Theorem tri_transparent xs ys zs vals t qs t' x y z : NewTriCubic xs ys zs vals = Some t -> triRun t qs = Some t' ->
  snd (TriCubicEval t' x y z) = snd (TriCubicEval t x y z).
Proof.
  intros H0 HR. destruct (tri_init _ _ _ _ _ H0) as (yS & HI). pose proof (tri_run _ _ _ _ _ _ HI HR) as HI'.
  rewrite (proj1 (tri_step _ _ _ _ x y z HI)), (proj1 (tri_step _ _ _ _ x y z HI')). reflexivity.
Qed.

(** ** Table values *)
Lemma spline_node incr xs ys : mono incr xs -> (3 <= List.length xs)%nat -> List.length ys = List.length xs ->
  exists s, NewSpline xs ys = Some s /\ forall k a v, nth_error xs k = Some a -> nth_error ys k = Some v -> SplineEval s a = Some v.
Proof.
  intros Hm Hn Hl. destruct (NewSpline_ok incr xs ys Hm Hn Hl) as (s & M & E & OK). exists s. split; [exact E|].
  intros k a v Ha Hv. destruct (ends_ok _ _ _ _ _ OK) as (p & q & Hp & Hq & Hd).
  assert (Hkl : (k < List.length xs)%nat) by (apply nth_error_Some; congruence).
  rewrite (eval_curve _ _ _ _ _ OK a p q Hp Hq).
  - f_equal. apply (curve_node _ _ _ _ _ OK k a v Ha Hv).
  - assert (H1 : p = a \/ dlt incr p a).
    { destruct (Nat.eq_dec k 0) as [->|]; [left; congruence|right; apply (mono_lt incr xs 0 k); auto; lia]. }
    assert (H2 : a = q \/ dlt incr a q).
    { destruct (Nat.eq_dec k (List.length xs - 1)) as [->|]; [left; congruence|right; apply (mono_lt incr xs k (List.length xs - 1)); auto; lia]. }
    unfold btw. destruct incr; cbn in *; lra.
Qed.

Lemma sequence_map {A B} (f : A -> option B) (g : A -> B) l : (forall a, In a l -> f a = Some (g a)) -> sequence (map f l) = Some (map g l).
Proof.
  induction l as [|a l IH]; intros H; [reflexivity|]. cbn [map sequence]. rewrite (H a (or_introl eq_refl)). cbn [bindo].
  rewrite IH by (intros b Hb; apply H; right; exact Hb). reflexivity.
Qed.
Lemma evalSplines_map {A} (f : A -> Spline) (g : A -> R) x l : (forall a, In a l -> SplineEval (f a) x = Some (g a)) -> evalSplines (map f l) x = Some (map g l).
Proof.
  induction l as [|a l IH]; intros H; [reflexivity|]. cbn [map evalSplines]. rewrite (H a (or_introl eq_refl)). cbn [bindo].
  rewrite IH by (intros b Hb; apply H; right; exact Hb). reflexivity.
Qed.

(** A chosen spline for a table (total, so it can be mapped over). *)
Definition splineOf (xs ys : list R) : Spline := match NewSpline xs ys with Some s => s | None => Build_Spline [] [] [] [] true 0 end.
Lemma splineOf_spec incr xs ys : mono incr xs -> (3 <= List.length xs)%nat -> List.length ys = List.length xs ->
  NewSpline xs ys = Some (splineOf xs ys) /\ forall k a v, nth_error xs k = Some a -> nth_error ys k = Some v -> SplineEval (splineOf xs ys) a = Some v.
Proof.
  intros Hm Hn Hl. destruct (spline_node incr xs ys Hm Hn Hl) as (s & E & H). unfold splineOf. rewrite E. split; [reflexivity|exact H].
Qed.

Lemma nth_map_seq {A} (g : nat -> A) n i : (i < n)%nat -> nth_error (map g (seq 0 n)) i = Some (g i).
Proof.
  intros H. rewrite (map_nth_error g i (seq 0 n) (d := i)); [reflexivity|].
  rewrite (nth_error_nth' _ 0%nat) by (rewrite seq_length; lia). rewrite seq_nth by lia. reflexivity.
Qed.

Theorem bi_nodes incrx incry xs ys vals : mono incrx xs -> mono incry ys -> (3 <= List.length xs)%nat -> (3 <= List.length ys)%nat ->
  List.length vals = (List.length xs * List.length ys)%nat ->
  exists bi, NewBiCubic xs ys vals = Some bi /\
  forall i j a b v, nth_error xs i = Some a -> nth_error ys j = Some b -> nth_error vals (i + List.length xs * j) = Some v -> snd (BiCubicEval bi a b) = Some v.
Proof.
  intros Hmx Hmy Hx Hy HL. set (nx := List.length xs) in *. set (ny := List.length ys) in *.
  set (col := fun xi => map (fun yi => nth (nx * yi + xi) vals 0) (seq 0 ny)).
  set (yS := map (fun xi => splineOf ys (col xi)) (seq 0 nx)).
  assert (Hcol : forall xi, List.length (col xi) = ny) by (intros; unfold col; rewrite map_length, seq_length; reflexivity).
  assert (HyS : sequence (map (fun xi => bindo (sequence (map (fun yi => nth_error vals (nx * yi + xi)) (seq 0 ny))) (NewSpline ys)) (seq 0 nx)) = Some yS).
  { apply sequence_map. intros xi Hxi. apply in_seq in Hxi.
    rewrite (sequence_map _ (fun yi => nth (nx * yi + xi) vals 0)).
    - cbn [bindo]. apply (splineOf_spec incry ys (col xi) Hmy Hy (Hcol xi)).
    - intros yi Hyi. apply in_seq in Hyi. apply nth_error_nth'. rewrite HL. nia. }
  assert (Hrow : forall j b, nth_error ys j = Some b -> evalSplines yS b = Some (map (fun xi => nth (nx * j + xi) vals 0) (seq 0 nx))).
  { intros j b Hb. apply evalSplines_map. intros xi Hxi. apply in_seq in Hxi.
    assert (Hj : (j < ny)%nat) by (apply nth_error_Some; congruence).
    apply (proj2 (splineOf_spec incry ys (col xi) Hmy Hy (Hcol xi)) j b); [exact Hb|]. unfold col.
    rewrite (nth_map_seq (fun yi => nth (nx * yi + xi) vals 0)) by exact Hj. reflexivity. }
  destruct (nth_ex ys 0) as [y0 Hy0]; [unfold ny in Hy; lia|].
  set (row := fun j => map (fun xi => nth (nx * j + xi) vals 0) (seq 0 nx)).
  assert (Hrowl : forall j, List.length (row j) = nx) by (intros; unfold row; rewrite map_length, seq_length; reflexivity).
  set (bi := {| bc_xs := xs; bc_ySplines := yS; bc_lastY := y0; bc_xSpline := splineOf xs (row 0%nat) |}).
  assert (Hnew : NewBiCubic xs ys vals = Some bi).
  { unfold NewBiCubic. fold nx ny. rewrite (proj2 (Nat.eqb_eq _ _) (eq_sym HL)). cbn [negb]. rewrite HyS. cbn [bindo]. rewrite Hy0. cbn [bindo].
    rewrite (Hrow O y0 Hy0). cbn [bindo]. fold (row O). rewrite (proj1 (splineOf_spec incrx xs (row O) Hmx Hx (Hrowl O))). reflexivity. }
  exists bi. split; [exact Hnew|]. intros i j a b v Ha Hb Hv.
  assert (HI : biInv xs yS bi).
  { split; [reflexivity|]. split; [reflexivity|]. cbn. rewrite (Hrow O y0 Hy0). cbn [bindo]. apply (splineOf_spec incrx xs (row O) Hmx Hx (Hrowl O)). }
  rewrite (proj1 (bi_step _ _ _ a b HI)). unfold biPure. rewrite (Hrow j b Hb). cbn [bindo]. fold (row j).
  rewrite (proj1 (splineOf_spec incrx xs (row j) Hmx Hx (Hrowl j))). cbn [bindo].
  apply (proj2 (splineOf_spec incrx xs (row j) Hmx Hx (Hrowl j)) i a); [exact Ha|]. unfold row.
  assert (Hi : (i < nx)%nat) by (apply nth_error_Some; congruence).
  rewrite (nth_map_seq (fun xi => nth (nx * j + xi) vals 0)) by exact Hi. f_equal. apply nth_error_nth. rewrite <- Hv. f_equal. lia.
Qed.

Theorem tri_nodes ix iy iz xs ys zs vals : mono ix xs -> mono iy ys -> mono iz zs ->
  (3 <= List.length xs)%nat -> (3 <= List.length ys)%nat -> (3 <= List.length zs)%nat ->
  List.length vals = (List.length xs * List.length ys * List.length zs)%nat ->
  exists t, NewTriCubic xs ys zs vals = Some t /\
  forall i j k a b c v, nth_error xs i = Some a -> nth_error ys j = Some b -> nth_error zs k = Some c ->
    nth_error vals (i + List.length xs * j + List.length xs * List.length ys * k) = Some v -> snd (TriCubicEval t a b c) = Some v.
Proof.
  intros Hmx Hmy Hmz Hx Hy Hz HL. set (nx := List.length xs) in *. set (ny := List.length ys) in *. set (nz := List.length zs) in *.
  set (V := fun xi yi zi => nth (nx * ny * zi + nx * yi + xi) vals 0).
  set (zc := fun xi yi => map (V xi yi) (seq 0 nz)).
  set (zS := map (fun xi => map (fun yi => splineOf zs (zc xi yi)) (seq 0 ny)) (seq 0 nx)).
  assert (Hzc : forall xi yi, List.length (zc xi yi) = nz) by (intros; unfold zc; rewrite map_length, seq_length; reflexivity).
  assert (HzS : sequence (map (fun xi => sequence (map (fun yi =>
      bindo (sequence (map (fun zi => nth_error vals (nx * ny * zi + nx * yi + xi)) (seq 0 nz))) (NewSpline zs)) (seq 0 ny))) (seq 0 nx)) = Some zS).
  { apply sequence_map. intros xi Hxi. apply in_seq in Hxi. apply sequence_map. intros yi Hyi. apply in_seq in Hyi.
    rewrite (sequence_map _ (V xi yi)).
    - cbn [bindo]. apply (splineOf_spec iz zs (zc xi yi) Hmz Hz (Hzc xi yi)).
    - intros zi Hzi. apply in_seq in Hzi. apply nth_error_nth'. rewrite HL.
      pose proof (idx3 nx ny nz xi yi zi ltac:(lia) ltac:(lia) ltac:(lia)). lia. }
  set (yc := fun k xi => map (fun yi => V xi yi k) (seq 0 ny)).
  assert (Hyc : forall k xi, List.length (yc k xi) = ny) by (intros; unfold yc; rewrite map_length, seq_length; reflexivity).
  set (yS := fun k => map (fun xi => splineOf ys (yc k xi)) (seq 0 nx)).
  assert (HyS : forall k c, nth_error zs k = Some c -> ySplinesAt ys zS c = Some (yS k)).
  { intros k c Hc. assert (Hk : (k < nz)%nat) by (apply nth_error_Some; congruence).
    unfold ySplinesAt, zS. rewrite map_map. apply sequence_map. intros xi Hxi.
    rewrite (evalSplines_map _ (fun yi => V xi yi k)).
    - cbn [bindo]. apply (splineOf_spec iy ys (yc k xi) Hmy Hy (Hyc k xi)).
    - intros yi Hyi. apply (proj2 (splineOf_spec iz zs (zc xi yi) Hmz Hz (Hzc xi yi)) k c); [exact Hc|]. unfold zc.
      apply (nth_map_seq (V xi yi)). exact Hk. }
  set (xc := fun j k => map (fun xi => V xi j k) (seq 0 nx)).
  assert (Hxc : forall j k, List.length (xc j k) = nx) by (intros; unfold xc; rewrite map_length, seq_length; reflexivity).
  assert (HxS : forall j k b, nth_error ys j = Some b -> xSplineAt xs (yS k) b = Some (splineOf xs (xc j k))).
  { intros j k b Hb. assert (Hj : (j < ny)%nat) by (apply nth_error_Some; congruence).
    unfold xSplineAt, yS. rewrite (evalSplines_map _ (fun xi => V xi j k)).
    - cbn [bindo]. apply (splineOf_spec ix xs (xc j k) Hmx Hx (Hxc j k)).
    - intros xi Hxi. apply (proj2 (splineOf_spec iy ys (yc k xi) Hmy Hy (Hyc k xi)) j b); [exact Hb|]. unfold yc.
      apply (nth_map_seq (fun yi => V xi yi k)). exact Hj. }
  destruct (nth_ex ys 0) as [y0 Hy0]; [unfold ny in Hy; lia|]. destruct (nth_ex zs 0) as [z0 Hz0]; [unfold nz in Hz; lia|].
  set (t := {| tc_xs := xs; tc_ys := ys; tc_zSplines := zS; tc_lastY := y0; tc_lastZ := z0; tc_ySplines := yS O; tc_xSpline := splineOf xs (xc O O) |}).
  exists t. split.
  { unfold NewTriCubic. cbv zeta. fold nx ny nz. rewrite (proj2 (Nat.eqb_eq _ _) (eq_sym HL)). cbn [negb]. rewrite HzS. cbn [bindo]. rewrite Hz0. cbn [bindo].
    rewrite (HyS O z0 Hz0). cbn [bindo]. rewrite Hy0. cbn [bindo]. rewrite (HxS O O y0 Hy0). reflexivity. }
  assert (HI : triInv xs ys zS t) by (repeat split; cbn; [apply HyS; exact Hz0|apply HxS; exact Hy0]).
  intros i j k a b c v Ha Hb Hc Hv. rewrite (proj1 (tri_step _ _ _ _ a b c HI)). unfold triPure. rewrite (HyS k c Hc). cbn [bindo].
  rewrite (HxS j k b Hb). cbn [bindo]. apply (proj2 (splineOf_spec ix xs (xc j k) Hmx Hx (Hxc j k)) i a); [exact Ha|]. unfold xc.
  assert (Hi : (i < nx)%nat) by (apply nth_error_Some; congruence).
  rewrite (nth_map_seq (fun xi => V xi j k)) by exact Hi. f_equal. unfold V. apply nth_error_nth. rewrite <- Hv. f_equal. lia.
Qed.

(** After a (recovered) panic on an out-of-range y the cache holds that y with the old spline: the same query now succeeds. *)
Theorem bi_stale xs ys vals bi x y v : NewBiCubic xs ys vals = Some bi -> y <> bc_lastY bi ->
  bindo (evalSplines (bc_ySplines bi) y) (NewSpline xs) = None ->
  snd (BiCubicEval bi x (bc_lastY bi)) = Some v ->
  snd (BiCubicEval bi x y) = None /\ snd (BiCubicEval (fst (BiCubicEval bi x y)) x y) = Some v.
Proof.
  intros H0 Hy Hs Hv. destruct (bi_init _ _ _ _ H0) as (yS & E1 & E2 & E3).
  assert (HB : BiCubicEval bi x y = ({| bc_xs := bc_xs bi; bc_ySplines := bc_ySplines bi; bc_lastY := y; bc_xSpline := bc_xSpline bi |}, None)).
  { unfold BiCubicEval. rewrite (proj2 (Reqb_false _ _) Hy). cbv zeta. rewrite E1, Hs. reflexivity. }
  rewrite HB. split; [reflexivity|]. cbn [fst]. unfold BiCubicEval in *. cbn [bc_lastY bc_xSpline].
  rewrite (proj2 (Reqb_true y y) eq_refl). rewrite (proj2 (Reqb_true (bc_lastY bi) (bc_lastY bi)) eq_refl) in Hv. exact Hv.
Qed.
