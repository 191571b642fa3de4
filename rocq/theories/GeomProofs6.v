(** * Proofs about Platonic solids. *)
From Coq Require Import Reals Lra Psatz List Bool ZArith Lia.
From Verif Require Import RealBase GeomSpec GeomProofs GeomProofs2 GeomProofs3.
Import List ListNotations.
Local Open Scope R_scope.

Definition raw (verts : list v3) : v3 := fold_left add3 verts zero3.
Lemma normal_raw vs : normal vs = let s := sqrt (dot3 (raw vs) (raw vs)) in V3 (cx (raw vs) / s) (cy (raw vs) / s) (cz (raw vs) / s).
Proof. unfold normal. cbv zeta. fold (raw vs). unfold dot3. rewrite !Rplus_0_l. reflexivity. Qed.
Definition nonzero (v : v3) : Prop := cx v <> 0 \/ cy v <> 0 \/ cz v <> 0.
Lemma nonzero_pos v : nonzero v -> 0 < dot3 v v.
Proof.
  intros H. unfold dot3. pose proof (Rle_0_sqr (cx v)). pose proof (Rle_0_sqr (cy v)). pose proof (Rle_0_sqr (cz v)). unfold Rsqr in *.
  destruct H as [H|[H|H]]; apply Rsqr_pos_lt in H; unfold Rsqr in H; lra.
Qed.
Lemma normal_unit vs : nonzero (raw vs) -> dot3 (normal vs) (normal vs) = 1.
Proof.
  intros H. apply nonzero_pos in H. rewrite normal_raw. cbv zeta. set (s := sqrt _). assert (S2 : s * s = dot3 (raw vs) (raw vs)) by (apply sqrt_sqrt; lra).
  assert (s <> 0) by (intros E; rewrite E in S2; lra). unfold dot3 at 1. cbn [cx cy cz].
  apply Rmult_eq_reg_r with (s * s); [|nra]. rewrite S2 at 2. unfold dot3. field. auto.
Qed.
Lemma normal_plane vs us : nonzero (raw vs) -> nonzero (raw us) -> same_plane (normal vs) (normal us) -> same_plane (raw vs) (raw us).
Proof.
  intros Hv Hu (k & K). apply nonzero_pos in Hv, Hu. rewrite !normal_raw in K. cbv zeta in K. set (s := sqrt (dot3 (raw vs) (raw vs))) in *. set (r := sqrt (dot3 (raw us) (raw us))) in *.
  assert (0 < s) by (apply sqrt_lt_R0; auto). assert (0 < r) by (apply sqrt_lt_R0; auto). exists (k * s / r). cbn [cx cy cz] in K. injection K as X Y Z.
  apply v3_eq; cbn [cx cy cz].
  - transitivity (cx (raw vs) / s * s); [field; lra|]. rewrite X. field. lra.
  - transitivity (cy (raw vs) / s * s); [field; lra|]. rewrite Y. field. lra.
  - transitivity (cz (raw vs) / s * s); [field; lra|]. rewrite Z. field. lra.
Qed.

Lemma golden_bounds : 3 / 2 < golden < 2.
Proof.
  unfold golden. assert (S : sqrt 5 * sqrt 5 = 5) by (apply sqrt_sqrt; lra). pose proof (sqrt_pos 5). split; nra.
Qed.

Definition vlist := map (fun p : R * R * R => let '(x, y, z) := p in V3 x y z).
Ltac lists := repeat first [apply f_equal2; [unfold raw; cbn [fold_left]; unfold add3, zero3; cbn [cx cy cz]; f_equal; ring|]|reflexivity].
Lemma raw_tetrahedron : map raw tetrahedron_faces = [V3 1 1 (-1); V3 (-1) (-1) (-1); V3 1 (-1) 1; V3 (-1) 1 1].
Proof. unfold tetrahedron_faces. cbn [map]. lists. Qed.
Lemma raw_hexahedron : map raw hexahedron_faces = [V3 4 0 0; V3 0 4 0; V3 0 0 4; V3 0 (-4) 0; V3 (-4) 0 0; V3 0 0 (-4)].
Proof. unfold hexahedron_faces. cbn [map]. lists. Qed.
Lemma raw_octahedron : exists a b, 0 < a /\ 0 < b /\ map raw octahedron_faces = [V3 (-a) b 0; V3 0 b (-a); V3 a b 0; V3 0 b a; V3 a (-b) 0; V3 0 (-b) a; V3 (-a) (-b) 0; V3 0 (-b) (-a)].
Proof.
  assert (0 < sqrt 2) by (apply sqrt_lt_R0; lra). assert (0 < / (2 * sqrt 2)) by (apply Rinv_0_lt_compat; lra).
  exists (2 * (1 / (2 * sqrt 2))), (1 / 2). split; [lra|]. split; [lra|]. unfold octahedron_faces. cbv zeta. generalize (1 / (2 * sqrt 2)) (1 / 2). intros. cbn [map]. lists.
Qed.
Lemma raw_dodecahedron : exists p q, 0 < p /\ 0 < q /\ map raw dodecahedron_faces =
  [V3 0 p q; V3 0 (-p) q; V3 (-p) (-q) 0; V3 p (-q) 0; V3 q 0 p; V3 (-q) 0 p; V3 0 (-p) (-q); V3 0 p (-q); V3 p q 0; V3 (-p) q 0; V3 (-q) 0 (-p); V3 q 0 (-p)].
Proof.
  pose proof golden_bounds. assert (0 < 1 / golden) by (unfold Rdiv; rewrite Rmult_1_l; apply Rinv_0_lt_compat; lra).
  exists (1 + 2 * (1 / golden)), (2 + 2 * (1 / golden) + (2 - golden)). split; [lra|]. split; [lra|]. unfold dodecahedron_faces. cbv zeta.
  generalize (1 / golden) (2 - golden). intros. cbn [map]. lists.
Qed.
Lemma raw_icosahedron : exists p q r, 0 < p /\ 0 < q /\ 0 < r /\ map raw icosahedron_faces =
  [V3 0 p q; V3 0 p (-q); V3 (-q) 0 p; V3 q 0 p; V3 (-r) r r; V3 (-r) (-r) (-r); V3 r r r; V3 p q 0; V3 r (-r) r; V3 (-p) q 0;
   V3 0 (-p) (-q); V3 0 (-p) q; V3 q 0 (-p); V3 (-q) 0 (-p); V3 r (-r) (-r); V3 r r (-r); V3 (-r) r (-r); V3 (-p) (-q) 0; V3 (-r) (-r) r; V3 p (-q) 0].
Proof.
  pose proof golden_bounds. assert (0 < 1 / (2 * golden)) by (unfold Rdiv; rewrite Rmult_1_l; apply Rinv_0_lt_compat; lra).
  exists (2 * (1 / 2) + 1 / (2 * golden)), (1 / 2), (1 / 2 + 1 / (2 * golden)). split; [lra|]. split; [lra|]. split; [lra|]. unfold icosahedron_faces. cbv zeta.
  generalize (1 / 2) (1 / (2 * golden)). intros. cbn [map]. lists.
Qed.
Lemma raws_nonzero s : Forall nonzero (map raw (solid_faces s)).
Proof.
  destruct s; cbn [solid_faces].
  - rewrite raw_tetrahedron. repeat constructor; cbn; lra.
  - rewrite raw_hexahedron. unfold nonzero. repeat (apply Forall_cons; [cbn [cx cy cz]; lra|]). apply Forall_nil.
  - destruct raw_octahedron as (a & b & Ha & Hb & ->). unfold nonzero. repeat (apply Forall_cons; [cbn [cx cy cz]; lra|]). apply Forall_nil.
  - destruct raw_dodecahedron as (a & b & Ha & Hb & ->). unfold nonzero. repeat (apply Forall_cons; [cbn [cx cy cz]; lra|]). apply Forall_nil.
  - destruct raw_icosahedron as (a & b & c & Ha & Hb & Hc & ->). unfold nonzero. repeat (apply Forall_cons; [cbn [cx cy cz]; lra|]). apply Forall_nil.
Qed.
Lemma faces_length s : length (solid_faces s) = sides s. Proof. destruct s; reflexivity. Qed.
Lemma normals_unit s : Forall (fun v => dot3 v v = 1) (normals s).
Proof.
  unfold normals. apply Forall_map. pose proof (raws_nonzero s) as H. rewrite Forall_map in H. revert H. apply Forall_impl. intros vs. apply normal_unit.
Qed.

Definition separate (l : list v3) : Prop := forall i j, (i < j < length l)%nat -> ~ same_plane (nth i l zero3) (nth j l zero3).
Lemma separate_normals (fs : list (list v3)) : Forall nonzero (map raw fs) -> separate (map raw fs) -> separate (map normal fs).
Proof.
  intros N S i j H K. rewrite map_length in H. rewrite Forall_forall in N.
  assert (G : forall (f : list v3 -> v3) i, (i < length fs)%nat -> nth i (map f fs) zero3 = f (nth i fs [])).
  { intros f k Hk. rewrite <- (map_nth f). apply nth_indep. rewrite map_length. exact Hk. }
  rewrite !G in K by lia. apply normal_plane in K.
  - apply (S i j); [rewrite map_length; lia|]. rewrite !G by lia. exact K.
  - apply N, in_map, nth_In. lia. - apply N, in_map, nth_In. lia.
Qed.
Lemma pairs_separate l : ForallOrdPairs (fun v u => ~ same_plane v u) l -> separate l.
Proof.
  induction 1 as [|x l F P IH]; intros i j H; [cbn in H; lia|]. cbn [length] in H. destruct j as [|j]; [lia|]. destruct i as [|i].
  - cbn [nth]. rewrite Forall_forall in F. apply F, nth_In. lia.
  - cbn [nth]. apply IH. lia.
Qed.
Ltac pairs := apply pairs_separate; repeat (apply FOP_cons; [repeat (apply Forall_cons; [intros (k & K); cbn [cx cy cz] in K; injection K as X Y Z|]); try apply Forall_nil|]); try apply FOP_nil.
Lemma firstn_map {A B} (f : A -> B) n l : firstn n (map f l) = map f (firstn n l).
Proof. revert l. induction n; intros [|x l]; cbn; congruence. Qed.
Lemma unique_separate s : s <> Icosahedron -> separate (unique_normals s).
Proof.
  intros N. assert (E : unique_normals s = map normal (match s with Tetrahedron => solid_faces s | _ => firstn (sides s / 2) (solid_faces s) end)).
  { unfold unique_normals, normals. rewrite map_length, faces_length. destruct s; rewrite ?firstn_map; reflexivity. }
  rewrite E. clear E. apply separate_normals.
  - pose proof (raws_nonzero s) as H. destruct s; auto; rewrite <- firstn_map; apply Forall_forall; rewrite Forall_forall in H; intros x Hx; apply H;
      (match type of Hx with In _ (firstn ?n ?l) => rewrite <- (firstn_skipn n l) end); apply in_app_iff; left; exact Hx.
  - destruct s; try congruence; cbn [solid_faces]; rewrite <- ?firstn_map.
    + rewrite raw_tetrahedron. pairs; nra.
    + rewrite raw_hexahedron. change (firstn (sides Hexahedron / 2) _) with [V3 4 0 0; V3 0 4 0; V3 0 0 4]. pairs; nra.
    + destruct raw_octahedron as (a & b & Ha & Hb & ->). change (firstn (sides Octahedron / 2) _) with [V3 (-a) b 0; V3 0 b (-a); V3 a b 0; V3 0 b a]. pairs; nra.
    + destruct raw_dodecahedron as (p & q & Hp & Hq & ->). change (firstn (sides Dodecahedron / 2) _) with [V3 0 p q; V3 0 (-p) q; V3 (-p) (-q) 0; V3 p (-q) 0; V3 q 0 p; V3 (-q) 0 p].
      pairs; nra.
Qed.
Lemma icosahedron_double : same_plane (nth 5 (unique_normals Icosahedron) zero3) (nth 6 (unique_normals Icosahedron) zero3).
Proof.
  assert (E : unique_normals Icosahedron = map normal (firstn 10 icosahedron_faces)) by (unfold unique_normals, normals; rewrite map_length, <- firstn_map; reflexivity).
  rewrite E. set (f5 := nth 5 icosahedron_faces []). set (f6 := nth 6 icosahedron_faces []).
  change (same_plane (normal f5) (normal f6)). exists (-1). pose proof raw_icosahedron as (p & q & r & _ & _ & _ & R).
  assert (R5 : raw f5 = V3 (-r) (-r) (-r)) by (change (raw f5) with (nth 5 (map raw icosahedron_faces) zero3); rewrite R; reflexivity).
  assert (R6 : raw f6 = V3 r r r) by (change (raw f6) with (nth 6 (map raw icosahedron_faces) zero3); rewrite R; reflexivity).
  rewrite !normal_raw. cbv zeta. rewrite R5, R6. unfold dot3. cbn [cx cy cz]. replace (- r * - r) with (r * r) by ring. unfold Rdiv. f_equal; ring.
Qed.
