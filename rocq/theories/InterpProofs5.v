(** * NewSpline: success on monotone tables, and the equations its coefficients satisfy. *)
From Coq Require Import Lra Psatz.
From Verif Require Import GoBase RealBase InterpModel InterpSpec InterpProofs InterpProofs2 InterpProofs3 InterpProofs4.
Local Open Scope R_scope.
Local Open Scope list_scope.

Definition mono (incr : bool) (xs : list R) : Prop := if incr then increasing xs else decreasing xs.
Definition dlt (incr : bool) (a b : R) : Prop := if incr then a < b else b < a.
Lemma mono_lt incr xs i j a b : mono incr xs -> (i < j)%nat -> nth_error xs i = Some a -> nth_error xs j = Some b -> dlt incr a b.
Proof. intros H. destruct incr; intros; apply (H i j); assumption. Qed.
Lemma dlt_ne incr a b : dlt incr a b -> b - a <> 0.
Proof. destruct incr; cbn; lra. Qed.
Lemma mono_tl incr x xs : mono incr (x :: xs) -> mono incr xs.
Proof. destruct incr; intros H i j a b Hij Ha Hb; apply (H (S i) (S j) a b); try assumption; lia. Qed.

Lemma splineRows_nth : forall i xs ys x0 x1 x2 y0 y1 y2,
  nth_error xs i = Some x0 -> nth_error xs (S i) = Some x1 -> nth_error xs (S (S i)) = Some x2 ->
  nth_error ys i = Some y0 -> nth_error ys (S i) = Some y1 -> nth_error ys (S (S i)) = Some y2 ->
  nth_error (splineRows xs ys) i = Some ((x1 - x0) / 6, (x2 - x0) / 3, (x2 - x1) / 6, ((y2 - y1) / (x2 - x1)) - ((y1 - y0) / (x1 - x0))).
Proof.
  induction i as [|i IH]; intros xs ys x0 x1 x2 y0 y1 y2 H0 H1 H2 H3 H4 H5.
  - destruct xs as [|a [|b [|c xs]]]; try discriminate. destruct ys as [|d [|e [|f ys]]]; try discriminate.
    cbn in *. congruence.
  - destruct xs as [|a xs]; [discriminate|]. destruct ys as [|d ys]; [discriminate|]. cbn [nth_error] in H0, H1, H2, H3, H4, H5.
    specialize (IH xs ys _ _ _ _ _ _ H0 H1 H2 H3 H4 H5).
    destruct xs as [|b [|c xs]]; [destruct i; discriminate|destruct i as [|[|i]]; discriminate|].
    destruct ys as [|e [|f ys]]; [destruct i; discriminate|destruct i as [|[|i]]; discriminate|].
    cbn [splineRows nth_error] in *. exact IH.
Qed.

Lemma splineRows_length : forall xs ys, List.length xs = List.length ys -> List.length (splineRows xs ys) = (List.length xs - 2)%nat.
Proof.
  induction xs as [|a xs IH]; intros ys H; [reflexivity|]. destruct ys as [|d ys]; [discriminate|].
  destruct xs as [|b [|c xs]]; [reflexivity|destruct ys as [|e [|f ys]]; reflexivity|].
  destruct ys as [|e [|f ys]]; try (cbn in H; lia).
  specialize (IH (e :: f :: ys) ltac:(cbn in *; lia)).
  change (splineRows (a :: b :: c :: xs) (d :: e :: f :: ys)) with
    (((b - a) / 6, (c - a) / 3, (c - b) / 6, ((f - e) / (c - b)) - ((e - d) / (b - a))) :: splineRows (b :: c :: xs) (e :: f :: ys)).
  cbn [List.length]. rewrite IH. cbn [List.length]. lia.
Qed.

Lemma calcCoeffs_nth : forall i xs ys ds x0 x1 y0 y1 d0 d1,
  nth_error xs i = Some x0 -> nth_error xs (S i) = Some x1 -> nth_error ys i = Some y0 -> nth_error ys (S i) = Some y1 ->
  nth_error ds i = Some d0 -> nth_error ds (S i) = Some d1 ->
  nth_error (calcCoeffs xs ys ds) i =
    Some {| ca := (- d0 / 6 + d1 / 6) / (x1 - x0); cb := d0 / 2; cc := (y1 - y0) / (x1 - x0) + (x1 - x0) * (- d0 / 3 - d1 / 6); cd := y0 |}.
Proof.
  induction i as [|i IH]; intros xs ys ds x0 x1 y0 y1 d0 d1 H0 H1 H2 H3 H4 H5.
  - destruct xs as [|a [|b xs]]; try discriminate. destruct ys as [|d [|e ys]]; try discriminate. destruct ds as [|f [|g ds]]; try discriminate.
    cbn in *. congruence.
  - destruct xs as [|a xs]; [discriminate|]. destruct ys as [|d ys]; [discriminate|]. destruct ds as [|f ds]; [discriminate|].
    cbn [nth_error] in H0, H1, H2, H3, H4, H5. specialize (IH xs ys ds _ _ _ _ _ _ H0 H1 H2 H3 H4 H5).
    destruct xs as [|b xs]; [destruct i; discriminate|]. destruct ys as [|e ys]; [destruct i; discriminate|]. destruct ds as [|g ds]; [destruct i; discriminate|].
    cbn [calcCoeffs nth_error] in *. exact IH.
Qed.

Lemma calcCoeffs_length : forall xs ys ds, List.length ys = List.length xs -> List.length ds = List.length xs ->
  List.length (calcCoeffs xs ys ds) = (List.length xs - 1)%nat.
Proof.
  induction xs as [|a xs IH]; intros [|d ys] [|f ds]; intros H1 H2; cbn in H1, H2; try lia; [reflexivity|].
  specialize (IH ys ds ltac:(lia) ltac:(lia)). destruct xs as [|b xs]; destruct ys as [|e ys]; destruct ds as [|g ds]; cbn in H1, H2; try lia; [reflexivity|].
  change (calcCoeffs (a :: b :: xs) (d :: e :: ys) (f :: g :: ds)) with
   ({| ca := (- f / 6 + g / 6) / (b - a); cb := f / 2; cc := (e - d) / (b - a) + (b - a) * (- f / 3 - g / 6); cd := d |} :: calcCoeffs (b :: xs) (e :: ys) (g :: ds)).
  cbn [List.length]. rewrite IH. cbn [List.length]. lia.
Qed.

Lemma sortedTable_mono incr xs : mono incr xs -> sortedTable incr xs = true.
Proof.
  induction xs as [|a xs IH]; intros H; [reflexivity|]. specialize (IH (mono_tl _ _ _ H)).
  destruct xs as [|b xs]; [reflexivity|]. cbn [sortedTable] in *. rewrite IH, andb_true_r.
  pose proof (mono_lt incr _ 0 1 a b H ltac:(lia) eq_refl eq_refl) as Hd. destruct incr; cbn in Hd |- *.
  - rewrite (proj2 (Rltb_false b a)) by lra. reflexivity.
  - rewrite (proj2 (Rltb_false a b)) by lra. reflexivity.
Qed.

Lemma nth_of_error {A} (l : list A) i v d : nth_error l i = Some v -> nth i l d = v.
Proof. intros H. apply nth_error_nth with (d := d) in H. exact H. Qed.

Lemma getx (xs : list R) i : (i < List.length xs)%nat -> exists v, nth_error xs i = Some v.
Proof. apply nth_ex. Qed.

Lemma nth_error_map' {A B} (f : A -> B) l i v : nth_error l i = Some v -> nth_error (map f l) i = Some (f v).
Proof. intros. apply map_nth_error. assumption. Qed.

(** What is known of a spline built from a table of at least three points. *)
Record splineOK (incr : bool) (xs ys : list R) (s : Spline) (M : list R) : Prop := {
  so_mono : mono incr xs;
  so_len : (3 <= List.length xs)%nat;
  so_ylen : List.length ys = List.length xs;
  so_mlen : List.length M = List.length xs;
  so_xs : sp_xs s = xs;
  so_ys : sp_ys s = ys;
  so_cs : sp_coeffs s = calcCoeffs xs ys M;
  so_incr : sp_incr s = incr;
  so_m0 : nth_error M 0 = Some 0;
  so_mn : nth_error M (List.length xs - 1) = Some 0;
  so_eq : forall i x0 x1 x2 y0 y1 y2 m0 m1 m2,
    nth_error xs i = Some x0 -> nth_error xs (S i) = Some x1 -> nth_error xs (S (S i)) = Some x2 ->
    nth_error ys i = Some y0 -> nth_error ys (S i) = Some y1 -> nth_error ys (S (S i)) = Some y2 ->
    nth_error M i = Some m0 -> nth_error M (S i) = Some m1 -> nth_error M (S (S i)) = Some m2 ->
    (x1 - x0) / 6 * m0 + (x2 - x0) / 3 * m1 + (x2 - x1) / 6 * m2 = (y2 - y1) / (x2 - x1) - (y1 - y0) / (x1 - x0) }.

Theorem NewSpline_ok incr xs ys : mono incr xs -> (3 <= List.length xs)%nat -> List.length ys = List.length xs ->
  exists s M, NewSpline xs ys = Some s /\ splineOK incr xs ys s M.
Proof.
  intros Hm Hn Hl. set (rows := splineRows xs ys).
  assert (Hrl : List.length rows = (List.length xs - 2)%nat) by (apply splineRows_length; lia).
  assert (Hrow : forall i, (i < List.length xs - 2)%nat -> exists x0 x1 x2 y0 y1 y2,
     nth_error xs i = Some x0 /\ nth_error xs (S i) = Some x1 /\ nth_error xs (S (S i)) = Some x2 /\
     nth_error ys i = Some y0 /\ nth_error ys (S i) = Some y1 /\ nth_error ys (S (S i)) = Some y2 /\
     nth_error rows i = Some ((x1 - x0) / 6, (x2 - x0) / 3, (x2 - x1) / 6, ((y2 - y1) / (x2 - x1)) - ((y1 - y0) / (x1 - x0)))).
  { intros i Hi. destruct (getx xs i) as [x0 E0]; [lia|]. destruct (getx xs (S i)) as [x1 E1]; [lia|]. destruct (getx xs (S (S i))) as [x2 E2]; [lia|].
    destruct (getx ys i) as [y0 F0]; [lia|]. destruct (getx ys (S i)) as [y1 F1]; [lia|]. destruct (getx ys (S (S i))) as [y2 F2]; [lia|].
    exists x0, x1, x2, y0, y1, y2. repeat (split; [assumption|]). apply splineRows_nth; assumption. }
  set (A := map (fun r => fst (fst (fst r))) rows). set (B := map (fun r => snd (fst (fst r))) rows).
  set (C := map (fun r => snd (fst r)) rows). set (Rr := map snd rows).
  assert (LA : List.length A = (List.length xs - 2)%nat) by (unfold A; rewrite map_length; exact Hrl).
  assert (LB : List.length B = (List.length xs - 2)%nat) by (unfold B; rewrite map_length; exact Hrl).
  assert (LC : List.length C = (List.length xs - 2)%nat) by (unfold C; rewrite map_length; exact Hrl).
  assert (LR : List.length Rr = (List.length xs - 2)%nat) by (unfold Rr; rewrite map_length; exact Hrl).
  assert (Hdom : dominant A B C).
  { intros i Hi. rewrite LB in Hi. destruct (Hrow i Hi) as (x0 & x1 & x2 & y0 & y1 & y2 & E0 & E1 & E2 & F0 & F1 & F2 & Er).
    unfold A, B, C. rewrite (nth_of_error _ _ _ 0 (nth_error_map' _ _ _ _ Er)), (nth_of_error _ _ _ 0 (nth_error_map' _ _ _ _ Er)), (nth_of_error _ _ _ 0 (nth_error_map' _ _ _ _ Er)).
    cbn [fst snd]. pose proof (mono_lt incr xs i (S i) x0 x1 Hm ltac:(lia) E0 E1) as D1. pose proof (mono_lt incr xs (S i) (S (S i)) x1 x2 Hm ltac:(lia) E1 E2) as D2.
    assert (HH : Rabs ((x1 - x0) / 6) + Rabs ((x2 - x1) / 6) < Rabs ((x2 - x0) / 3)).
    { destruct incr; cbn in D1, D2.
      - rewrite !Rabs_right by lra. lra.
      - rewrite !Rabs_left by lra. lra. }
    pose proof (Rabs_pos ((x1 - x0) / 6)). pose proof (Rabs_pos ((x2 - x1) / 6)).
    destruct i; destruct (Nat.eqb _ _); lra. }
  destruct (TriDiag_dominant A B C Rr (List.length xs - 2)%nat LA LB LC LR ltac:(lia) Hdom) as [us HT].
  pose proof (TriDiag_solves _ _ _ _ _ HT) as [Hul Hsol]. rewrite LB in Hul, Hsol.
  set (M := 0 :: us ++ [0]).
  assert (HM : List.length M = List.length xs) by (unfold M; cbn [List.length]; rewrite app_length, Hul; cbn; lia).
  assert (HMs : forall i, (i < List.length us)%nat -> nth_error M (S i) = Some (nth i us 0)).
  { intros i Hi. unfold M. cbn [nth_error]. rewrite nth_error_app1 by exact Hi. apply nth_error_nth'. exact Hi. }
  assert (HMn : nth_error M (List.length xs - 1) = Some 0).
  { unfold M. replace (List.length xs - 1)%nat with (S (List.length us)) by lia. cbn [nth_error].
    rewrite nth_error_app2 by lia. rewrite Nat.sub_diag. reflexivity. }
  assert (HMget : forall i m, nth_error M (S i) = Some m -> (i < List.length us)%nat -> m = nth i us 0) by (intros i m Em Hi; rewrite (HMs i Hi) in Em; congruence).
  destruct xs as [|x0 [|x1 xs']]; [cbn in Hn; lia|cbn in Hn; lia|].
  assert (Hincr : Rltb x0 x1 = incr).
  { pose proof (mono_lt incr _ 0 1 x0 x1 Hm ltac:(lia) eq_refl eq_refl) as D. destruct incr; cbn in D; [apply Rltb_true|apply Rltb_false]; lra. }
  assert (HY : calcY2s (x0 :: x1 :: xs') ys = Some M).
  { unfold calcY2s. cbv zeta. fold rows. fold A B C Rr. rewrite HT. reflexivity. }
  eexists. exists M. split.
  { unfold NewSpline. rewrite (proj2 (Nat.eqb_eq _ _) (eq_sym Hl)). cbn [negb]. cbv zeta. rewrite Hincr, (sortedTable_mono incr _ Hm).
    rewrite HY. cbn [bindo]. reflexivity. }
  split; try assumption; try reflexivity.
  intros i a b c d e f m0 m1 m2 E0 E1 E2 F0 F1 F2 G0 G1 G2.
  assert (Hi : (S (S i) < List.length (x0 :: x1 :: xs'))%nat) by (apply nth_error_Some; congruence).
  assert (Hi' : (i < List.length (x0 :: x1 :: xs') - 2)%nat) by lia.
  pose proof (splineRows_nth i _ _ _ _ _ _ _ _ E0 E1 E2 F0 F1 F2) as Er. fold rows in Er.
  pose proof (Hsol i Hi') as Hs. unfold A, B, C, Rr in Hs.
  rewrite (nth_of_error _ _ _ 0 (nth_error_map' _ _ _ _ Er)) in Hs.
  rewrite (nth_of_error _ _ _ 0 (nth_error_map' _ _ _ _ Er)) in Hs.
  rewrite (nth_of_error _ _ _ 0 (nth_error_map' _ _ _ _ Er)) in Hs.
  rewrite (nth_of_error _ _ _ 0 (nth_error_map' _ _ _ _ Er)) in Hs. cbn [fst snd] in Hs.
  rewrite <- Hs. rewrite (HMget i m1 G1 ltac:(lia)).
  assert (T0 : match i with O => 0 | S k => (b - a) / 6 * nth k us 0 end = (b - a) / 6 * m0).
  { destruct i as [|k]; [unfold M in G0; cbn in G0; injection G0 as <-; ring|]. rewrite (HMget k m0 G0 ltac:(lia)). reflexivity. }
  rewrite T0. f_equal.
  destruct (Nat.eqb_spec (S i) (List.length (x0 :: x1 :: xs') - 2)) as [Eq|Ne].
  - replace (S (S i)) with (List.length (x0 :: x1 :: xs') - 1)%nat in G2 by lia. rewrite HMn in G2. injection G2 as <-. ring.
  - rewrite (HMget (S i) m2 G2 ltac:(lia)). reflexivity.
Qed.

(** ** Cells: (left knot, right knot, coefficients) *)
Fixpoint mkCells (xs : list R) (cs : list coeff) : list (R * R * coeff) :=
  match xs, cs with
  | a :: ((b :: _) as xs'), c :: cs' => (a, b, c) :: mkCells xs' cs'
  | _, _ => []
  end.

Lemma mkCells_nth : forall i xs cs a b c, nth_error xs i = Some a -> nth_error xs (S i) = Some b -> nth_error cs i = Some c ->
  nth_error (mkCells xs cs) i = Some (a, b, c).
Proof.
  induction i as [|i IH]; intros xs cs a b c H0 H1 H2.
  - destruct xs as [|x [|x' xs]]; try discriminate. destruct cs as [|d cs]; try discriminate. cbn in *. congruence.
  - destruct xs as [|x xs]; [discriminate|]. destruct cs as [|d cs]; [discriminate|]. cbn [nth_error] in H0, H1, H2.
    specialize (IH xs cs a b c H0 H1 H2). destruct xs as [|x' xs]; [destruct i; discriminate|]. exact IH.
Qed.
Lemma mkCells_inv : forall i xs cs a b c, nth_error (mkCells xs cs) i = Some (a, b, c) ->
  nth_error xs i = Some a /\ nth_error xs (S i) = Some b /\ nth_error cs i = Some c.
Proof.
  induction i as [|i IH]; intros xs cs a b c H.
  - destruct xs as [|x [|x' xs]]; try discriminate; destruct cs as [|d cs]; try discriminate. cbn in *. injection H as -> -> ->. auto.
  - destruct xs as [|x [|x' xs]]; try discriminate; destruct cs as [|d cs]; try discriminate.
    change (nth_error (mkCells (x' :: xs) cs) i = Some (a, b, c)) in H. apply IH in H. exact H.
Qed.

(** Neighbouring cells meet, in order, and their polynomials agree to second order at the common knot. *)
Fixpoint chain (incr : bool) (cells : list (R * R * coeff)) : Prop :=
  match cells with
  | [] => True
  | (a, b, c) :: rest => dlt incr a b /\
      match rest with
      | [] => True
      | (a', b', c') :: _ => a' = b /\ (forall k, (k <= 2)%nat -> poly c k (b - a) = poly c' k 0)
      end /\ chain incr rest
  end.

Lemma chain_of_nth incr : forall cells,
  (forall i a b c, nth_error cells i = Some (a, b, c) -> dlt incr a b) ->
  (forall i a b c a' b' c', nth_error cells i = Some (a, b, c) -> nth_error cells (S i) = Some (a', b', c') ->
      a' = b /\ (forall k, (k <= 2)%nat -> poly c k (b - a) = poly c' k 0)) -> chain incr cells.
Proof.
  induction cells as [|[[a b] c] cells IH]; intros H1 H2; [exact I|]. cbn [chain]. split; [apply (H1 O a b c eq_refl)|]. split.
  - destruct cells as [|[[a' b'] c'] cells]; [exact I|]. apply (H2 O a b c a' b' c'); reflexivity.
  - apply IH.
    + intros i. apply (H1 (S i)).
    + intros i. apply (H2 (S i)).
Qed.

Theorem splineOK_chain incr xs ys s M : splineOK incr xs ys s M -> chain incr (mkCells xs (sp_coeffs s)).
Proof.
  intros H. apply chain_of_nth.
  - intros i a b c E. apply mkCells_inv in E. destruct E as (Ea & Eb & _). apply (mono_lt incr xs i (S i)); auto. apply (so_mono _ _ _ _ _ H).
  - intros i a b c a' b' c' E1 E2. apply mkCells_inv in E1, E2. destruct E1 as (Ea & Eb & Ec), E2 as (Ea' & Eb' & Ec').
    assert (a' = b) by congruence. subst a'. split; [reflexivity|].
    assert (Hl : (S (S i) < List.length xs)%nat) by (apply nth_error_Some; congruence).
    pose proof (so_ylen _ _ _ _ _ H). pose proof (so_mlen _ _ _ _ _ H).
    destruct (getx ys i) as [y0 F0]; [lia|]. destruct (getx ys (S i)) as [y1 F1]; [lia|]. destruct (getx ys (S (S i))) as [y2 F2]; [lia|].
    destruct (getx M i) as [m0 G0]; [lia|]. destruct (getx M (S i)) as [m1 G1]; [lia|]. destruct (getx M (S (S i))) as [m2 G2]; [lia|].
    rewrite (so_cs _ _ _ _ _ H) in Ec, Ec'.
    rewrite (calcCoeffs_nth i _ _ _ _ _ _ _ _ _ Ea Eb F0 F1 G0 G1) in Ec. injection Ec as <-.
    rewrite (calcCoeffs_nth (S i) _ _ _ _ _ _ _ _ _ Ea' Eb' F1 F2 G1 G2) in Ec'. injection Ec' as <-.
    pose proof (so_eq _ _ _ _ _ H i _ _ _ _ _ _ _ _ _ Ea Eb Eb' F0 F1 F2 G0 G1 G2) as Heq.
    pose proof (dlt_ne _ _ _ (mono_lt incr xs i (S i) _ _ (so_mono _ _ _ _ _ H) ltac:(lia) Ea Eb)) as N1.
    pose proof (dlt_ne _ _ _ (mono_lt incr xs (S i) (S (S i)) _ _ (so_mono _ _ _ _ _ H) ltac:(lia) Eb Eb')) as N2.
    intros k Hk. destruct k as [|[|[|k]]]; [| | |lia]; cbn [poly ca cb cc cd].
    + field; auto.
    + assert (E1 : 3 * ((- m0 / 6 + m1 / 6) / (b - a)) * (b - a) * (b - a) + 2 * (m0 / 2) * (b - a) + ((y1 - y0) / (b - a) + (b - a) * (- m0 / 3 - m1 / 6))
              = (y1 - y0) / (b - a) + (b - a) * (m0 / 6 + m1 / 3)) by (field; exact N1).
      rewrite E1. replace ((y1 - y0) / (b - a)) with ((y2 - y1) / (b' - b) - ((b - a) / 6 * m0 + (b' - a) / 3 * m1 + (b' - b) / 6 * m2)) by lra. field; auto.
    + field; auto.
Qed.
