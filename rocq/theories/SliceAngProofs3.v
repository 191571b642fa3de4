(** * Angles of tetrahedron slices: at most two lines of a slice meet a ray. *)
From Coq Require Import Reals Lra Psatz List Bool ZArith Lia Permutation.
From Verif Require Import RealBase ShellModel ShellProofs GeomModel GeomSpec GeomProofs GeomProofs2 GeomProofs5 SliceAngModel SliceAngSpec SliceAngProofs SliceAngProofs2.
Import List ListNotations.
Local Open Scope R_scope.

Lemma neg_signs a b : a * b < 0 -> (a < 0 /\ 0 < b) \/ (0 < a /\ b < 0).
Proof. intros H. destruct (Rle_dec 0 a); destruct (Rle_dec 0 b); [nra| |left; split; nra|nra]. right. split; nra. Qed.
Lemma tri_no a b c : a * b < 0 -> b * c < 0 -> c * a < 0 -> False.
Proof. intros A B C. apply neg_signs in A, B, C. lra. Qed.
Lemma quad_signs z za zb zc zd fa fb fc fd x1 x2 x3 x4 : za < z -> zb < z -> z <= zc -> z <= zd ->
  x1 * (zc - za) = fa * (zc - z) + fc * (z - za) -> x2 * (zd - za) = fa * (zd - z) + fd * (z - za) ->
  x3 * (zd - zb) = fb * (zd - z) + fd * (z - zb) -> x4 * (zc - zb) = fb * (zc - z) + fc * (z - zb) ->
  0 < x1 -> x2 < 0 -> 0 < x3 -> x4 < 0 -> False.
Proof.
  intros A B C D E1 E2 E3 E4 X1 X2 X3 X4. set (al := z - za) in *. set (be := z - zb) in *. set (ga := zc - z) in *. set (de := zd - z) in *.
  replace (zc - za) with (al + ga) in E1 by (unfold al, ga; ring). replace (zd - za) with (al + de) in E2 by (unfold al, de; ring).
  replace (zd - zb) with (be + de) in E3 by (unfold be, de; ring). replace (zc - zb) with (be + ga) in E4 by (unfold be, ga; ring).
  assert (0 < al) by (unfold al; lra). assert (0 < be) by (unfold be; lra). assert (0 <= ga) by (unfold ga; lra). assert (0 <= de) by (unfold de; lra). clearbody al be ga de.
  assert (Id : be * de * (x1 * (al + ga)) + al * ga * (x3 * (be + de)) = be * ga * (x2 * (al + de)) + al * de * (x4 * (be + ga))) by (rewrite E1, E2, E3, E4; ring).
  assert (P1 : 0 < x1 * (al + ga)) by nra. assert (P2 : x2 * (al + de) < 0) by nra. assert (P3 : 0 < x3 * (be + de)) by nra. assert (P4 : x4 * (be + ga) < 0) by nra.
  set (v1 := x1 * (al + ga)) in *. set (v2 := x2 * (al + de)) in *. set (v3 := x3 * (be + de)) in *. set (v4 := x4 * (be + ga)) in *.
  assert (0 <= be * de) by nra. assert (0 <= al * ga) by nra. assert (0 <= be * ga) by nra. assert (0 <= al * de) by nra.
  assert (L1 : 0 <= be * de * v1) by nra. assert (L2 : 0 <= al * ga * v3) by nra. assert (L3 : be * ga * v2 <= 0) by nra. assert (L4 : al * de * v4 <= 0) by nra.
  assert (Z1 : be * de * v1 = 0) by lra. assert (Z2 : al * ga * v3 = 0) by lra.
  assert (de = 0) by (apply Rmult_integral in Z1; destruct Z1 as [Z1|Z1]; [apply Rmult_integral in Z1; destruct Z1; lra|lra]).
  assert (ga = 0) by (apply Rmult_integral in Z2; destruct Z2 as [Z2|Z2]; [apply Rmult_integral in Z2; destruct Z2; lra|lra]).
  subst de ga. assert (0 < fc * al) by lra. assert (fc * be < 0) by lra. assert (0 < fc) by nra. nra.
Qed.
Lemma quad_no z za zb zc zd fa fb fc fd x1 x2 x3 x4 : za < z -> zb < z -> z <= zc -> z <= zd ->
  x1 * (zc - za) = fa * (zc - z) + fc * (z - za) -> x2 * (zd - za) = fa * (zd - z) + fd * (z - za) ->
  x3 * (zd - zb) = fb * (zd - z) + fd * (z - zb) -> x4 * (zc - zb) = fb * (zc - z) + fc * (z - zb) ->
  (x1 * x2 < 0 /\ x2 * x3 < 0 /\ x3 * x4 < 0) \/ (x2 * x3 < 0 /\ x3 * x4 < 0 /\ x4 * x1 < 0) \/ (x3 * x4 < 0 /\ x4 * x1 < 0 /\ x1 * x2 < 0) \/ (x4 * x1 < 0 /\ x1 * x2 < 0 /\ x2 * x3 < 0) -> False.
Proof.
  intros A B C D E1 E2 E3 E4 H.
  assert (K : (0 < x1 /\ x2 < 0 /\ 0 < x3 /\ x4 < 0) \/ (x1 < 0 /\ 0 < x2 /\ x3 < 0 /\ 0 < x4)).
  { destruct H as [(a & b & c)|[(a & b & c)|[(a & b & c)|(a & b & c)]]]; apply neg_signs in a, b, c; lra. }
  destruct K as [(K1 & K2 & K3 & K4)|(K1 & K2 & K3 & K4)].
  - exact (quad_signs z za zb zc zd fa fb fc fd x1 x2 x3 x4 A B C D E1 E2 E3 E4 K1 K2 K3 K4).
  - apply (quad_signs z za zb zc zd (- fa) (- fb) (- fc) (- fd) (- x1) (- x2) (- x3) (- x4) A B C D); lra.
Qed.

(** The side of a corner. *)
Definition fside (phi : R) (v : v3) : R := cos phi * cy v - sin phi * cx v.
Lemma side_point t z phi i : (i < 6)%nat -> let s := nth i edge_starts 0%nat in let e := nth i edge_ends 0%nat in is_low t z s <> is_low t z e ->
  side phi (intersect_z (vertex t s) (p_u (edge (plucker_tetra t) i)) z) * (cz (vertex t e) - cz (vertex t s)) =
  fside phi (vertex t s) * (cz (vertex t e) - z) + fside phi (vertex t e) * (z - cz (vertex t s)).
Proof.
  intros Hi s e N. rewrite edge_dir by exact Hi. fold s e. unfold is_low in N. assert (Nz : cz (vertex t e) - cz (vertex t s) <> 0).
  { intros E. apply N. replace (cz (vertex t e)) with (cz (vertex t s)) by lra. reflexivity. }
  unfold intersect_z, side, fside. cbn [sub3 cx cy cz]. unfold Reqb. destruct (Req_EM_T (cz (vertex t e) - cz (vertex t s)) 0) as [|_]; [contradiction|]. cbv zeta. cbn [fst snd]. field. exact Nz.
Qed.
Definition opposite_ends (phi : R) (pts : list (R * R)) (se : list (option nat) * list (option nat)) (i : nat) : Prop :=
  side phi (nth (idx (nth i (fst se) None)) pts (0, 0)) * side phi (nth (idx (nth i (snd se) None)) pts (0, 0)) < 0.
Ltac three := first [left; repeat split; lra | right; left; repeat split; lra | right; right; left; repeat split; lra | right; right; right; repeat split; lra].
Lemma few_lines t z phi : let pts := map fst (slice_points t (plucker_tetra t) z) in let se := link (map snd (slice_points t (plucker_tetra t) z)) in
  forall i j k, (i < j)%nat -> (j < k)%nat -> (k < length pts)%nat -> opposite_ends phi pts se i -> opposite_ends phi pts se j -> opposite_ends phi pts se k -> False.
Proof.
  cbv zeta. unfold opposite_ends.
  pose proof (fun i H => side_point t z phi i H) as SP. cbv zeta in SP.
  pose proof (SP 0%nat ltac:(lia)) as S0. pose proof (SP 1%nat ltac:(lia)) as S1. pose proof (SP 2%nat ltac:(lia)) as S2. pose proof (SP 3%nat ltac:(lia)) as S3. pose proof (SP 4%nat ltac:(lia)) as S4. pose proof (SP 5%nat ltac:(lia)) as S5. clear SP.
  cbn [nth edge_starts edge_ends] in S0, S1, S2, S3, S4, S5.
  unfold slice_points, crosses_z. cbn [seq flat_map nth edge_starts edge_ends].
  assert (L : forall v, is_low t z v = true -> cz (vertex t v) < z) by (intros v; unfold is_low; destruct (Rltb_spec (cz (vertex t v)) z); intros; [assumption|discriminate]).
  assert (U : forall v, is_low t z v = false -> z <= cz (vertex t v)) by (intros v; unfold is_low; destruct (Rltb_spec (cz (vertex t v)) z); intros; [discriminate|lra]).
  pose proof (L 0%nat) as L0. pose proof (L 1%nat) as L1. pose proof (L 2%nat) as L2. pose proof (L 3%nat) as L3. pose proof (U 0%nat) as U0. pose proof (U 1%nat) as U1. pose proof (U 2%nat) as U2. pose proof (U 3%nat) as U3. clear L U.
  change (Rltb (cz (vertex t 0)) z) with (is_low t z 0). change (Rltb (cz (vertex t 1)) z) with (is_low t z 1).
  change (Rltb (cz (vertex t 2)) z) with (is_low t z 2). change (Rltb (cz (vertex t 3)) z) with (is_low t z 3).
  set (x0 := intersect_z (vertex t 0) (p_u (edge (plucker_tetra t) 0)) z) in *. set (x1 := intersect_z (vertex t 0) (p_u (edge (plucker_tetra t) 1)) z) in *.
  set (x2 := intersect_z (vertex t 0) (p_u (edge (plucker_tetra t) 2)) z) in *. set (x3 := intersect_z (vertex t 1) (p_u (edge (plucker_tetra t) 3)) z) in *.
  set (x4 := intersect_z (vertex t 1) (p_u (edge (plucker_tetra t) 4)) z) in *. set (x5 := intersect_z (vertex t 2) (p_u (edge (plucker_tetra t) 5)) z) in *.
  clearbody x0 x1 x2 x3 x4 x5.
  destruct (is_low t z 0), (is_low t z 1), (is_low t z 2), (is_low t z 3); cbn [Bool.eqb negb app map fst snd length];
    try (match goal with |- context [link ?e] => let r := eval vm_compute in (link e) in change (link e) with r end);
    cbn [fst snd]; intros i j k Hij Hjk Hk A B C;
    (destruct i as [|[|[|[|i]]]]; try lia); (destruct j as [|[|[|[|j]]]]; try lia); (destruct k as [|[|[|[|k]]]]; try lia);
    cbn [nth idx] in A, B, C;
    try (exact (tri_no _ _ _ A B ltac:(lra)));
    try (specialize (L0 eq_refl)); try (specialize (L1 eq_refl)); try (specialize (L2 eq_refl)); try (specialize (L3 eq_refl));
    try (specialize (U0 eq_refl)); try (specialize (U1 eq_refl)); try (specialize (U2 eq_refl)); try (specialize (U3 eq_refl));
    try (specialize (S0 ltac:(discriminate))); try (specialize (S1 ltac:(discriminate))); try (specialize (S2 ltac:(discriminate)));
    try (specialize (S3 ltac:(discriminate))); try (specialize (S4 ltac:(discriminate))); try (specialize (S5 ltac:(discriminate))).
  all: first
    [ apply (quad_no z _ _ _ _ (fside phi (vertex t 0)) (fside phi (vertex t 1)) (fside phi (vertex t 2)) (fside phi (vertex t 3)) (side phi x1) (side phi x2) (side phi x4) (side phi x3) L0 L1 U2 U3); [lra|lra|lra|lra|three]
    | apply (quad_no z _ _ _ _ (fside phi (vertex t 2)) (fside phi (vertex t 3)) (fside phi (vertex t 0)) (fside phi (vertex t 1)) (side phi x1) (side phi x3) (side phi x4) (side phi x2) L2 L3 U0 U1); [lra|lra|lra|lra|three]
    | apply (quad_no z _ _ _ _ (fside phi (vertex t 0)) (fside phi (vertex t 2)) (fside phi (vertex t 1)) (fside phi (vertex t 3)) (side phi x0) (side phi x2) (side phi x5) (side phi x3) L0 L2 U1 U3); [lra|lra|lra|lra|three]
    | apply (quad_no z _ _ _ _ (fside phi (vertex t 1)) (fside phi (vertex t 3)) (fside phi (vertex t 0)) (fside phi (vertex t 2)) (side phi x0) (side phi x3) (side phi x5) (side phi x2) L1 L3 U0 U2); [lra|lra|lra|lra|three]
    | apply (quad_no z _ _ _ _ (fside phi (vertex t 0)) (fside phi (vertex t 3)) (fside phi (vertex t 1)) (fside phi (vertex t 2)) (side phi x0) (side phi x1) (side phi x5) (side phi x4) L0 L3 U1 U2); [lra|lra|lra|lra|three]
    | apply (quad_no z _ _ _ _ (fside phi (vertex t 1)) (fside phi (vertex t 2)) (fside phi (vertex t 0)) (fside phi (vertex t 3)) (side phi x0) (side phi x4) (side phi x5) (side phi x1) L1 L2 U0 U3); [lra|lra|lra|lra|three] ].
Qed.

(** ** The loop of IntersectingLines *)
Lemma loop_after phi l1 : forall ls i r, lines_loop phi ls i (Some l1) = r -> fst r = Some l1 /\
  match snd r with
  | None => forall k l, nth_error ls k = Some l -> line_hit phi l = false
  | Some m => exists k l, m = (i + k)%nat /\ nth_error ls k = Some l /\ line_hit phi l = true /\ forall k' l', (k' < k)%nat -> nth_error ls k' = Some l' -> line_hit phi l' = false
  end.
Proof.
  induction ls as [|l ls IH]; intros i r <-; cbn [lines_loop].
  - split; [reflexivity|]. cbn [snd]. intros [|k] l; discriminate.
  - destruct (line_hit phi l) eqn:E.
    + split; [reflexivity|]. cbn [snd]. exists 0%nat, l. split; [lia|]. split; [reflexivity|]. split; [exact E|]. intros; lia.
    + destruct (IH (S i) _ eq_refl) as (A & B). split; [exact A|]. destruct (snd (lines_loop phi ls (S i) (Some l1))) as [m|].
      * destruct B as (k & l' & -> & K & H & F). exists (S k), l'. split; [lia|]. split; [exact K|]. split; [exact H|]. intros [|k'] l'' Lt N; [injection N as <-; exact E|]. apply (F k' l''); [lia|exact N].
      * intros [|k] l' N; [injection N as <-; exact E|]. exact (B k l' N).
Qed.
Lemma loop_first phi : forall ls i r, lines_loop phi ls i None = r ->
  match fst r with
  | None => snd r = None /\ forall k l, nth_error ls k = Some l -> line_hit phi l = false
  | Some m => exists k l, m = (i + k)%nat /\ nth_error ls k = Some l /\ line_hit phi l = true /\ (forall k' l', (k' < k)%nat -> nth_error ls k' = Some l' -> line_hit phi l' = false) /\
      match snd r with
      | None => forall k' l', (k < k')%nat -> nth_error ls k' = Some l' -> line_hit phi l' = false
      | Some m2 => exists k2 l2, m2 = (i + k2)%nat /\ (k < k2)%nat /\ nth_error ls k2 = Some l2 /\ line_hit phi l2 = true /\
          forall k' l', (k < k')%nat -> (k' < k2)%nat -> nth_error ls k' = Some l' -> line_hit phi l' = false
      end
  end.
Proof.
  induction ls as [|l ls IH]; intros i r <-; cbn [lines_loop].
  - split; [reflexivity|]. intros [|k] l; discriminate.
  - destruct (line_hit phi l) eqn:E.
    + destruct (loop_after phi i ls (S i) _ eq_refl) as (-> & B). exists 0%nat, l. split; [lia|]. split; [reflexivity|]. split; [exact E|]. split; [intros; lia|].
      destruct (snd (lines_loop phi ls (S i) (Some i))) as [m|].
      * destruct B as (k & l' & -> & K & H & F). exists (S k), l'. split; [lia|]. split; [lia|]. split; [exact K|]. split; [exact H|]. intros [|k'] l'' P L N; [lia|]. apply (F k' l''); [lia|exact N].
      * intros [|k'] l' P N; [lia|]. exact (B k' l' N).
    + pose proof (IH (S i) _ eq_refl) as A. destruct (fst (lines_loop phi ls (S i) None)) as [m|].
      * destruct A as (k & l' & -> & K & H & F & G). exists (S k), l'. split; [lia|]. split; [exact K|]. split; [exact H|].
        split; [intros [|k'] l'' Lt N; [injection N as <-; exact E|]; apply (F k' l''); [lia|exact N]|].
        destruct (snd (lines_loop phi ls (S i) None)) as [m2|].
        -- destruct G as (k2 & l2 & -> & L & K2 & H2 & F2). exists (S k2), l2. split; [lia|]. split; [lia|]. split; [exact K2|]. split; [exact H2|]. intros [|k'] l'' P L' N; [lia|]. apply (F2 k' l''); [lia|lia|exact N].
        -- intros [|k'] l'' P N; [lia|]. apply (G k' l''); [lia|exact N].
      * destruct A as (A & B). split; [exact A|]. intros [|k] l' N; [injection N as <-; exact E|]. exact (B k l' N).
Qed.
Lemma loop_few phi ls l1 l2 : intersecting_lines phi ls = (l1, l2) ->
  (forall i j k a b c, (i < j)%nat -> (j < k)%nat -> nth_error ls i = Some a -> nth_error ls j = Some b -> nth_error ls k = Some c ->
     line_hit phi a = true -> line_hit phi b = true -> line_hit phi c = true -> False) ->
  forall i a, nth_error ls i = Some a -> (line_hit phi a = true <-> l1 = Some i \/ l2 = Some i).
Proof.
  intros H Few i a Ha. pose proof (loop_first phi ls 0 _ H) as A. cbn [fst snd] in A. destruct l1 as [m|].
  - destruct A as (k & l & -> & K & Hk & F & G). cbn [Nat.add] in *. destruct l2 as [m2|].
    + destruct G as (k2 & l' & -> & L & K2 & H2 & F2). cbn [Nat.add] in *. split.
      * intros Hit. destruct (Nat.lt_trichotomy i k) as [C|[C|C]]; [rewrite (F i a C Ha) in Hit; discriminate|left; subst; reflexivity|].
        destruct (Nat.lt_trichotomy i k2) as [C2|[C2|C2]]; [rewrite (F2 i a C C2 Ha) in Hit; discriminate|right; subst; reflexivity|].
        exfalso. exact (Few k k2 i l l' a L C2 K K2 Ha Hk H2 Hit).
      * intros [E|E]; injection E as ->; congruence.
    + split.
      * intros Hit. destruct (Nat.lt_trichotomy i k) as [C|[C|C]]; [rewrite (F i a C Ha) in Hit; discriminate|left; subst; reflexivity|]. rewrite (G i a C Ha) in Hit; discriminate.
      * intros [E|E]; [injection E as ->; congruence|discriminate].
  - destruct A as (-> & F). split; [intros Hit; rewrite (F i a Ha) in Hit; discriminate|intros [E|E]; discriminate].
Qed.

(** ** The lines of a slice *)
Section Slice.
Variables (t : tetra) (z phi : R).
Let pts := map fst (slice_points t (plucker_tetra t) z).
Let se := link (map snd (slice_points t (plucker_tetra t) z)).
Let ls := slice_lines t (plucker_tetra t) z.
Lemma slice_phis_eq : slice_phis t (plucker_tetra t) z = map corner_phi pts.
Proof. unfold slice_phis, pts. rewrite map_map. reflexivity. Qed.
Lemma slice_line i l : nth_error ls i = Some l -> exists s e, (i < length pts)%nat /\ nth i (fst se) None = Some s /\ nth i (snd se) None = Some e /\
  (s < length pts)%nat /\ (e < length pts)%nat /\ l = line_angle (map corner_phi pts) s e.
Proof.
  intros H. unfold ls, slice_lines, line_angles in H. rewrite slice_phis_eq in H. fold se in H.
  destruct (slice_tour t z) as (starts & ends & E & P1 & P2 & _). fold se in E. rewrite E in *. cbn [fst snd] in *.
  assert (L : length (map snd (slice_points t (plucker_tetra t) z)) = length pts) by (unfold pts; rewrite !map_length; reflexivity). rewrite L in P1, P2.
  rewrite nth_error_map in H. destruct (nth_error (combine (map Some starts) (map Some ends)) i) as [[s' e']|] eqn:N; [|discriminate]. injection H as <-. cbn [fst snd].
  assert (Lc : length starts = length pts) by (rewrite (Permutation_length P1), seq_length; reflexivity). assert (Ld : length ends = length pts) by (rewrite (Permutation_length P2), seq_length; reflexivity).
  assert (Hi : (i < length (combine (map Some starts) (map Some ends)))%nat) by (apply nth_error_Some; rewrite N; discriminate). rewrite combine_length, !map_length, Lc, Ld, Nat.min_id in Hi.
  apply (nth_error_nth _ _ (None, None)) in N. rewrite combine_nth in N by (rewrite !map_length; lia). injection N as N1 N2.
  assert (M1 : nth i (map Some starts) None = Some (nth i starts 0%nat)) by (rewrite (nth_indep _ None (Some 0%nat)) by (rewrite map_length; lia); apply map_nth).
  assert (M2 : nth i (map Some ends) None = Some (nth i ends 0%nat)) by (rewrite (nth_indep _ None (Some 0%nat)) by (rewrite map_length; lia); apply map_nth).
  rewrite M1 in N1. rewrite M2 in N2. subst s' e'. exists (nth i starts 0%nat), (nth i ends 0%nat). cbn [idx].
  assert (In (nth i starts 0%nat) (seq 0 (length pts))) as I1 by (apply (Permutation_in _ P1); apply nth_In; lia).
  assert (In (nth i ends 0%nat) (seq 0 (length pts))) as I2 by (apply (Permutation_in _ P2); apply nth_In; lia).
  apply in_seq in I1, I2. rewrite M1, M2. repeat split; auto; lia.
Qed.
Lemma slice_lines_length : length ls = length pts.
Proof.
  unfold ls, slice_lines, line_angles. rewrite map_length, combine_length.
  destruct (slice_tour t z) as (starts & ends & E & P1 & P2 & _). rewrite E. cbn [fst snd]. rewrite !map_length, (Permutation_length P1), (Permutation_length P2), seq_length, Nat.min_id.
  rewrite !map_length. unfold pts. rewrite map_length. reflexivity.
Qed.
Hypothesis Tphi : turn phi.
Hypothesis NC : forall p, In p pts -> ~ seen_at phi (fst p) (snd p).
Hypothesis NO : forall l, In l ls -> ~ on_segment (nth (la_from l) pts (0, 0)) (nth (la_to l) pts (0, 0)) 0 0.
Lemma slice_iff i l s e : nth_error ls i = Some l -> (s < length pts)%nat -> (e < length pts)%nat -> l = line_angle (map corner_phi pts) s e ->
  (line_hit phi l = true <-> ray_meets phi (nth (la_from l) pts (0, 0)) (nth (la_to l) pts (0, 0))) /\
  (line_hit phi l = true -> side phi (nth s pts (0, 0)) * side phi (nth e pts (0, 0)) < 0).
Proof.
  intros H Hs He El. pose proof (NO l (nth_error_In _ _ H)) as No.
  destruct (line_facts pts s e Hs He) as (P' & Q' & C & _). rewrite <- El in C.
  assert (No' : ~ on_segment (nth s pts (0, 0)) (nth e pts (0, 0)) 0 0).
  { destruct C as [(_ & _ & A & B)|(_ & _ & A & B)]; rewrite A, B in No; [exact No|intros X; apply No; apply segment_swap; exact X]. }
  assert (NS : ~ seen_at phi (fst (nth s pts (0, 0))) (snd (nth s pts (0, 0)))) by (apply NC; apply nth_In; exact Hs).
  assert (NE : ~ seen_at phi (fst (nth e pts (0, 0))) (snd (nth e pts (0, 0)))) by (apply NC; apply nth_In; exact He).
  pose proof (line_iff pts s e phi Hs He Tphi NS NE No') as I. rewrite <- El in I. split.
  - rewrite I. destruct C as [(_ & _ & A & B)|(_ & _ & A & B)]; rewrite A, B; [reflexivity|split; apply meets_swap].
  - intros Hit. eapply (meets_sides pts s e phi); eauto. apply I. exact Hit.
Qed.
Lemma slice_intersecting l1 l2 : intersecting_lines phi ls = (l1, l2) -> forall i l, nth_error ls i = Some l ->
  (ray_meets phi (nth (la_from l) pts (0, 0)) (nth (la_to l) pts (0, 0)) <-> l1 = Some i \/ l2 = Some i).
Proof.
  intros H i l N. destruct (slice_line i l N) as (s & e & Hi & _ & _ & Hs & He & El). destruct (slice_iff i l s e N Hs He El) as (I & _). rewrite <- I.
  apply (loop_few phi ls l1 l2 H); [|exact N].
  intros a b c la lb lc Hab Hbc Na Nb Nc Ha Hb Hc.
  destruct (slice_line a la Na) as (sa & ea & Ia & A1 & A2 & Sa & Ea & La). destruct (slice_line b lb Nb) as (sb & eb & Ib & B1 & B2 & Sb & Eb & Lb). destruct (slice_line c lc Nc) as (sc & ec & Ic & C1 & C2 & Sc & Ec & Lc).
  apply (few_lines t z phi a b c Hab Hbc Ic); unfold opposite_ends; fold pts se.
  - rewrite A1, A2. exact (proj2 (slice_iff a la sa ea Na Sa Ea La) Ha).
  - rewrite B1, B2. exact (proj2 (slice_iff b lb sb eb Nb Sb Eb Lb) Hb).
  - rewrite C1, C2. exact (proj2 (slice_iff c lc sc ec Nc Sc Ec Lc) Hc).
Qed.
End Slice.
