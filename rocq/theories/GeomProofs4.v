(** * Proofs about rays and tetrahedra: the result of IntersectionDistance. *)
From Coq Require Import Reals Lra Psatz List Bool ZArith Lia.
From Verif Require Import RealBase GeomSpec GeomProofs GeomProofs2 GeomProofs3.
Import List ListNotations.
Local Open Scope R_scope.

Lemma enters_iff t P L f : enters t P L f = true <-> 0 <= fw t P L f 0 /\ 0 <= fw t P L f 1 /\ 0 <= fw t P L f 2.
Proof. unfold enters. rewrite !andb_true_iff, !Rleb_iff. tauto. Qed.
Lemma leaves_iff t P L f : leaves t P L f = true <-> fw t P L f 0 <= 0 /\ fw t P L f 1 <= 0 /\ fw t P L f 2 <= 0.
Proof. unfold leaves. rewrite !andb_true_iff, !Rleb_iff. tauto. Qed.

(** A ray through an interior point enters some face and leaves some face. *)
Lemma w_anti t P L i j : w t P L j i = - w t P L i j.
Proof. unfold w. generalize (vertex t i) (vertex t j). intros. named. blow. ring. Qed.
Lemma scale_sign k x : 0 < k -> (0 <= x <-> 0 <= k * x) /\ (x <= 0 <-> k * x <= 0).
Proof. intros K. split; split; intros; try nra; apply Rnot_lt_le; intros ?; nra. Qed.
Lemma neg_sign x : (0 <= - x <-> x <= 0) /\ (- x <= 0 <-> 0 <= x).
Proof. split; split; intros; lra. Qed.
Lemma faces_exist t L X : in_interior t X ->
  (exists f, (f < 4)%nat /\ enters t X L f = true) /\ (exists f, (f < 4)%nat /\ leaves t X L f = true).
Proof.
  intros (a & b & c & d & Ha & Hb & Hc & Hd & E & EX).
  assert (R0 : b * w t X L 0 1 + c * w t X L 0 2 + d * w t X L 0 3 = 0).
  { subst X. assert (a = 1 - b - c - d) as -> by lra. clear. named. blow. ring. }
  assert (R1 : - a * w t X L 0 1 + c * w t X L 1 2 + d * w t X L 1 3 = 0).
  { subst X. assert (a = 1 - b - c - d) as -> by lra. clear. named. blow. ring. }
  assert (R2 : - a * w t X L 0 2 - b * w t X L 1 2 + d * w t X L 2 3 = 0).
  { subst X. assert (a = 1 - b - c - d) as -> by lra. clear. named. blow. ring. }
  assert (Pab : 0 < a * b) by nra. assert (Pac : 0 < a * c) by nra. assert (Pad : 0 < a * d) by nra.
  assert (Pbc : 0 < b * c) by nra. assert (Pbd : 0 < b * d) by nra. assert (Pcd : 0 < c * d) by nra.
  destruct (scale_sign _ (w t X L 0 1) Pab) as [A1 A2]. destruct (scale_sign _ (w t X L 0 2) Pac) as [B1 B2]. destruct (scale_sign _ (w t X L 0 3) Pad) as [C1 C2].
  destruct (scale_sign _ (w t X L 1 2) Pbc) as [D1 D2]. destruct (scale_sign _ (w t X L 1 3) Pbd) as [F1 F2]. destruct (scale_sign _ (w t X L 2 3) Pcd) as [G1 G2].
  assert (S0 : a * b * w t X L 0 1 + a * c * w t X L 0 2 + a * d * w t X L 0 3 = 0) by (transitivity (a * 0); [rewrite <- R0|]; ring).
  assert (S1 : - (a * b * w t X L 0 1) + b * c * w t X L 1 2 + b * d * w t X L 1 3 = 0) by (transitivity (b * 0); [rewrite <- R1|]; ring).
  assert (S2 : - (a * c * w t X L 0 2) - b * c * w t X L 1 2 + c * d * w t X L 2 3 = 0) by (transitivity (c * 0); [rewrite <- R2|]; ring).
  assert (F : forall f, (enters t X L f = true <-> 0 <= fw t X L f 0 /\ 0 <= fw t X L f 1 /\ 0 <= fw t X L f 2) /\
    (leaves t X L f = true <-> fw t X L f 0 <= 0 /\ fw t X L f 1 <= 0 /\ fw t X L f 2 <= 0)) by (intros; split; [apply enters_iff|apply leaves_iff]).
  pose proof (F 0%nat) as [E0 L0]. pose proof (F 1%nat) as [E1 L1]. pose proof (F 2%nat) as [E2 L2]. pose proof (F 3%nat) as [E3 L3]. clear F.
  unfold fw in *. cbn [vertex_idx nth tetra_idxs] in *.
  Ltac fixup t X L A1 A2 B1 B2 C1 C2 D1 D2 F1 F2 G1 G2 H :=
    rewrite ?(w_anti t X L 0 1), ?(w_anti t X L 0 2), ?(w_anti t X L 0 3), ?(w_anti t X L 1 2), ?(w_anti t X L 1 3), ?(w_anti t X L 2 3) in H;
    rewrite ?(proj1 (neg_sign _)), ?(proj2 (neg_sign _)) in H;
    rewrite ?A1, ?A2, ?B1, ?B2, ?C1, ?C2, ?D1, ?D2, ?F1, ?F2, ?G1, ?G2 in H.
  Ltac fixes t X L A1 A2 B1 B2 C1 C2 D1 D2 F1 F2 G1 G2 E0 E1 E2 E3 :=
    fixup t X L A1 A2 B1 B2 C1 C2 D1 D2 F1 F2 G1 G2 E0; fixup t X L A1 A2 B1 B2 C1 C2 D1 D2 F1 F2 G1 G2 E1;
    fixup t X L A1 A2 B1 B2 C1 C2 D1 D2 F1 F2 G1 G2 E2; fixup t X L A1 A2 B1 B2 C1 C2 D1 D2 F1 F2 G1 G2 E3.
  fixes t X L A1 A2 B1 B2 C1 C2 D1 D2 F1 F2 G1 G2 E0 E1 E2 E3. fixes t X L A1 A2 B1 B2 C1 C2 D1 D2 F1 F2 G1 G2 L0 L1 L2 L3.
  clear - S0 S1 S2 E0 E1 E2 E3 L0 L1 L2 L3.
  set (x := a * b * w t X L 0 1) in *. set (y := - (a * c * w t X L 0 2)). set (z := b * c * w t X L 1 2) in *.
  assert (Y : a * c * w t X L 0 2 = - y) by (unfold y; lra). rewrite Y in *. clearbody x y z.
  set (x3 := a * d * w t X L 0 3) in *. set (x13 := b * d * w t X L 1 3) in *. set (x23 := c * d * w t X L 2 3) in *. clearbody x3 x13 x23.
  assert (x3 = y - x) by lra. assert (x13 = x - z) by lra. assert (x23 = z - y) by lra. subst x3 x13 x23.
  split.
  - destruct (Rle_or_lt 0 x) as [Hx|Hx], (Rle_or_lt 0 y) as [Hy|Hy], (Rle_or_lt 0 z) as [Hz|Hz], (Rle_or_lt x y), (Rle_or_lt y z), (Rle_or_lt x z); try (exfalso; lra);
    first [exists 3%nat; split; [lia|]; apply E3; lra|exists 2%nat; split; [lia|]; apply E2; lra|exists 1%nat; split; [lia|]; apply E1; lra|exists 0%nat; split; [lia|]; apply E0; lra].
  - destruct (Rle_or_lt x 0) as [Hx|Hx], (Rle_or_lt y 0) as [Hy|Hy], (Rle_or_lt z 0) as [Hz|Hz], (Rle_or_lt x y), (Rle_or_lt y z), (Rle_or_lt x z); try (exfalso; lra);
    first [exists 3%nat; split; [lia|]; apply L3; lra|exists 2%nat; split; [lia|]; apply L2; lra|exists 1%nat; split; [lia|]; apply L1; lra|exists 0%nat; split; [lia|]; apply L0; lra].
Qed.

Definition long_enough (L : v3) : Prop := 1 / 1000000 < Rabs (cx L) \/ 1 / 1000000 < Rabs (cy L) \/ 1 / 1000000 < Rabs (cz L).
Lemma big_iff x : Rltb (1 / 1000000) x || Rltb x (- (1 / 1000000)) = true <-> 1 / 1000000 < Rabs x.
Proof. rewrite orb_true_iff, !Rltb_iff. unfold Rabs. destruct (Rcase_abs x); lra. Qed.
Lemma pick_ok L : long_enough L -> exists p, (p = cx \/ p = cy \/ p = cz) /\ p L <> 0 /\ forall v, coord v (pick_dim L) = Some (p v).
Proof.
  intros H. unfold pick_dim. cbv zeta. assert (N : forall x, 1 / 1000000 < Rabs x -> x <> 0) by (intros x K ->; rewrite Rabs_R0 in K; lra).
  destruct (_ || _) eqn:E0; [apply big_iff in E0; exists cx; repeat split; auto|].
  destruct (Rltb _ (cy L) || _) eqn:E1; [apply big_iff in E1; exists cy; repeat split; auto|].
  destruct (Rltb _ (cz L) || _) eqn:E2; [apply big_iff in E2; exists cz; repeat split; auto|].
  exfalso. destruct H as [H|[H|H]]; apply big_iff in H; congruence.
Qed.
Lemma distance_ok t P L f : (f < 4)%nat -> long_enough L -> fsum t P L f <> 0 -> distance t (anchored_init P L) (fbary t P L f) = Num (Sf t f P / fsum t P L f).
Proof.
  intros Hf HL Hs. destruct (pick_ok L HL) as (p & Hp & Np & C). unfold distance, anchored_init, fbary. cbn [a_p a_o plucker_init p_u b_w0 b_w1 b_w2 b_face]. cbv zeta.
  rewrite !C. replace (0 + fw t P L f 0 + fw t P L f 1 + fw t P L f 2) with (fsum t P L f) by (unfold fsum; ring).
  unfold Reqb. destruct (Req_EM_T (fsum t P L f) 0); [contradiction|]. f_equal.
  pose proof (weighted t P L f p Hf Hp) as W. set (a := p (vertex t (vertex_idx f 0))) in *. set (b := p (vertex t (vertex_idx f 1))) in *. set (c := p (vertex t (vertex_idx f 2))) in *.
  assert (E : fw t P L f 0 * a + fw t P L f 1 * b + fw t P L f 2 * c = Sf t f P * p L + fsum t P L f * p P) by (rewrite <- W; unfold fsum; ring).
  apply Rmult_eq_reg_r with (fsum t P L f * p L); [|apply Rmult_integral_contrapositive_currified; auto].
  transitivity ((fw t P L f 0 * a + fw t P L f 1 * b + fw t P L f 2 * c) - p P * fsum t P L f); [field; auto|]. rewrite E. field. auto.
Qed.
(** The point at the distance of a face is a convex combination of the vertices of the face. *)
Lemma on_face t P L f : (f < 4)%nat -> fsum t P L f <> 0 -> (enters t P L f = true \/ leaves t P L f = true) ->
  exists a b c, 0 <= a /\ 0 <= b /\ 0 <= c /\ a + b + c = 1 /\
    along P L (Sf t f P / fsum t P L f) = mix3 a b c 0 (vertex t (vertex_idx f 0)) (vertex t (vertex_idx f 1)) (vertex t (vertex_idx f 2)) zero3.
Proof.
  intros Hf Hs K. exists (fw t P L f 0 / fsum t P L f), (fw t P L f 1 / fsum t P L f), (fw t P L f 2 / fsum t P L f).
  assert (D : forall x, 0 < fsum t P L f /\ 0 <= x \/ fsum t P L f < 0 /\ x <= 0 -> 0 <= x / fsum t P L f).
  { intros x [[A B]|[A B]]; unfold Rdiv; [pose proof (Rinv_0_lt_compat _ A); nra|pose proof (Rinv_lt_0_compat _ A); nra]. }
  assert (G : forall k, (k < 3)%nat -> 0 < fsum t P L f /\ 0 <= fw t P L f k \/ fsum t P L f < 0 /\ fw t P L f k <= 0).
  { intros k Hk. destruct K as [K|K]; [apply enters_iff in K; left|apply leaves_iff in K; right]; destruct K as (K0 & K1 & K2);
    assert (k = 0 \/ k = 1 \/ k = 2)%nat as [-> | [-> | ->]] by lia; unfold fsum in *; lra. }
  split; [apply D, G; lia|]. split; [apply D, G; lia|]. split; [apply D, G; lia|]. split; [unfold fsum in *; field; auto|].
  assert (Q : forall p, (p = cx \/ p = cy \/ p = cz) -> p P + Sf t f P / fsum t P L f * p L = fw t P L f 0 / fsum t P L f * p (vertex t (vertex_idx f 0)) +
    fw t P L f 1 / fsum t P L f * p (vertex t (vertex_idx f 1)) + fw t P L f 2 / fsum t P L f * p (vertex t (vertex_idx f 2)) + 0 * 0).
  { intros p Hp. pose proof (weighted t P L f p Hf Hp) as W. set (a := p (vertex t (vertex_idx f 0))) in *. set (b := p (vertex t (vertex_idx f 1))) in *. set (c := p (vertex t (vertex_idx f 2))) in *.
    assert (E : fw t P L f 0 * a + fw t P L f 1 * b + fw t P L f 2 * c = Sf t f P * p L + fsum t P L f * p P) by (rewrite <- W; unfold fsum; ring).
    apply Rmult_eq_reg_r with (fsum t P L f); auto. transitivity (fw t P L f 0 * a + fw t P L f 1 * b + fw t P L f 2 * c); [rewrite E; field; auto|field; auto]. }
  apply v3_eq; unfold along, mix3; cbn [cx cy cz zero3]; apply Q; auto.
Qed.
Lemma face_in_tetra t f a b c : (f < 4)%nat -> 0 <= a -> 0 <= b -> 0 <= c -> a + b + c = 1 ->
  in_tetra t (mix3 a b c 0 (vertex t (vertex_idx f 0)) (vertex t (vertex_idx f 1)) (vertex t (vertex_idx f 2)) zero3).
Proof.
  intros Hf Ha Hb Hc E. faces f Hf; cbn [vertex_idx nth tetra_idxs vertex]; [exists 0, c, b, a|exists c, 0, a, b|exists b, a, 0, c|exists a, b, c, 0];
    repeat split; try lra; apply v3_eq; unfold mix3; cbn [cx cy cz zero3]; ring.
Qed.
Lemma interval_in t P L e x l : in_tetra t (along P L e) -> in_tetra t (along P L x) -> e <= l <= x -> in_tetra t (along P L l).
Proof.
  intros A B H. destruct (Req_dec e x) as [E|E]; [assert (l = e) as -> by lra; exact A|].
  destruct A as (a & b & c & d & Ha & Hb & Hc & Hd & S1 & M1). destruct B as (a' & b' & c' & d' & Ha' & Hb' & Hc' & Hd' & S2 & M2).
  set (u := (l - e) / (x - e)). assert (U : u * (x - e) = l - e) by (unfold u; field; lra).
  assert (0 <= u) by (unfold u, Rdiv; pose proof (Rinv_0_lt_compat (x - e) ltac:(lra)); nra). assert (u <= 1) by nra.
  assert (El : l = (1 - u) * e + u * x) by lra. clearbody u.
  exists ((1 - u) * a + u * a'), ((1 - u) * b + u * b'), ((1 - u) * c + u * c'), ((1 - u) * d + u * d').
  repeat split; try nra.
  unfold along, mix3 in *. injection M1 as X1 Y1 Z1. injection M2 as X2 Y2 Z2. apply v3_eq; cbn [cx cy cz].
  - transitivity ((1 - u) * (cx P + e * cx L) + u * (cx P + x * cx L)); [rewrite El; ring|]. rewrite X1, X2. ring.
  - transitivity ((1 - u) * (cy P + e * cy L) + u * (cy P + x * cy L)); [rewrite El; ring|]. rewrite Y1, Y2. ring.
  - transitivity ((1 - u) * (cz P + e * cz L) + u * (cz P + x * cz L)); [rewrite El; ring|]. rewrite Z1, Z2. ring.
Qed.

Theorem through_interior t P L : 0 < det_tetra t -> long_enough L -> (exists l, in_interior t (along P L l)) ->
  exists e x, intersection_distance (plucker_tetra t) t (anchored_init P L) = Some (Num e, Num x) /\ e < x /\ forall l, in_tetra t (along P L l) <-> e <= l <= x.
Proof.
  intros D HL (l0 & I). pose proof (interior_neg t _ D I) as N.
  assert (Z : forall h, (h < 4)%nat -> fsum t P L h = 0 -> enters t P L h = true \/ leaves t P L h = true -> False).
  { intros h Hh S0 K. assert (Z3 : fw t P L h 0 = 0 /\ fw t P L h 1 = 0 /\ fw t P L h 2 = 0).
    { unfold fsum in S0. destruct K as [K|K]; [apply enters_iff in K|apply leaves_iff in K]; lra. }
    destruct Z3 as (Z0 & Z1 & Z2). destruct (pick_ok L HL) as (p & Hp & Np & _). pose proof (weighted t P L h p Hh Hp) as W. rewrite Z0, Z1, Z2 in W.
    assert (Sf t h P = 0) by (apply Rmult_eq_reg_r with (p L); auto; lra). specialize (N h Hh). rewrite Sf_along in N by auto. rewrite S0 in N. lra. }
  destruct (faces_exist t L _ I) as [(f & Hf & Ef) (g & Hg & Lg)].
  assert (Ef' : enters t P L f = true) by (apply enters_iff; apply enters_iff in Ef; rewrite !w_along in Ef by auto; exact Ef).
  assert (Lg' : leaves t P L g = true) by (apply leaves_iff; apply leaves_iff in Lg; rewrite !w_along in Lg by auto; exact Lg).
  destruct (bary_complete t P L f g Hf Hg Ef' Lg') as (en & le & B).
  { intros h Hh A C. apply (Z h Hh); auto. apply enters_iff in A. apply leaves_iff in C. unfold fsum. lra. }
  clear f g Hf Hg Ef Lg Ef' Lg'. destruct (bary_sound t P L en le B) as (f & g & Hf & Hg & Hfg & -> & -> & Ef & Lg).
  assert (Pf : 0 < fsum t P L f). { assert (fsum t P L f <> 0) by (intros C; apply (Z f Hf C); auto). apply enters_iff in Ef. unfold fsum in *. lra. }
  assert (Pg : fsum t P L g < 0). { assert (fsum t P L g <> 0) by (intros C; apply (Z g Hg C); auto). apply leaves_iff in Lg. unfold fsum in *. lra. }
  unfold intersection_distance. change (a_p (anchored_init P L)) with (plucker_init P L). rewrite B. rewrite !distance_ok by (auto; lra).
  exists (Sf t f P / fsum t P L f), (Sf t g P / fsum t P L g). split; [reflexivity|].
  assert (Lo : forall l, Sf t f (along P L l) <= 0 <-> Sf t f P / fsum t P L f <= l).
  { intros l. rewrite Sf_along by auto. set (q := Sf t f P / fsum t P L f). assert (Q : q * fsum t P L f = Sf t f P) by (unfold q; field; lra). rewrite <- Q. clearbody q. split; intros; nra. }
  assert (Hi : forall l, Sf t g (along P L l) <= 0 <-> l <= Sf t g P / fsum t P L g).
  { intros l. rewrite Sf_along by auto. set (q := Sf t g P / fsum t P L g). assert (Q : q * fsum t P L g = Sf t g P) by (unfold q; field; lra). rewrite <- Q. clearbody q. split; intros; nra. }
  split.
  - pose proof (N f Hf) as Nf. pose proof (N g Hg) as Ng. rewrite Sf_along in Nf, Ng by auto.
    set (q := Sf t f P / fsum t P L f). assert (Q : q * fsum t P L f = Sf t f P) by (unfold q; field; lra).
    set (r := Sf t g P / fsum t P L g). assert (R : r * fsum t P L g = Sf t g P) by (unfold r; field; lra).
    rewrite <- Q in Nf. rewrite <- R in Ng. assert (q < l0) by nra. assert (l0 < r) by nra. lra.
  - intros l. split.
    + intros K. rewrite in_tetra_iff in K by auto. split; [apply Lo, K; auto|apply Hi, K; auto].
    + intros K. destruct (on_face t P L f Hf ltac:(lra) (or_introl Ef)) as (a & b & c & Ha & Hb & Hc & E & M).
      destruct (on_face t P L g Hg ltac:(lra) (or_intror Lg)) as (a' & b' & c' & Ha' & Hb' & Hc' & E' & M').
      apply (interval_in t P L _ _ l) in K; auto; [rewrite M|rewrite M']; apply face_in_tetra; auto.
Qed.

(** Whatever the ray: finite results are distances of points on the surface. *)
Theorem distances_on_tetra t P L u v : long_enough L -> intersection_distance (plucker_tetra t) t (anchored_init P L) = Some (u, v) ->
  (u = NotFinite \/ exists l, u = Num l /\ in_tetra t (along P L l)) /\ (v = NotFinite \/ exists l, v = Num l /\ in_tetra t (along P L l)).
Proof.
  intros HL. unfold intersection_distance. change (a_p (anchored_init P L)) with (plucker_init P L). destruct (intersection_bary _ _) as [[en le]|] eqn:B; [|discriminate].
  intros K. injection K as <- <-. destruct (bary_sound t P L en le B) as (f & g & Hf & Hg & Hfg & -> & -> & Ef & Lg).
  assert (G : forall h, (h < 4)%nat -> enters t P L h = true \/ leaves t P L h = true ->
    distance t (anchored_init P L) (fbary t P L h) = NotFinite \/ exists l, distance t (anchored_init P L) (fbary t P L h) = Num l /\ in_tetra t (along P L l)).
  { intros h Hh K. destruct (Req_dec (fsum t P L h) 0) as [Z|Z].
    - left. destruct (pick_ok L HL) as (p & Hp & Np & C). unfold distance, anchored_init, fbary. cbn [a_p a_o plucker_init p_u b_w0 b_w1 b_w2 b_face]. cbv zeta.
      rewrite !C. replace (0 + fw t P L h 0 + fw t P L h 1 + fw t P L h 2) with (fsum t P L h) by (unfold fsum; ring).
      unfold Reqb. destruct (Req_EM_T (fsum t P L h) 0); [reflexivity|contradiction].
    - right. rewrite distance_ok by auto. eexists. split; [reflexivity|]. destruct (on_face t P L h Hh Z K) as (a & b & c & Ha & Hb & Hc & E & M). rewrite M. apply face_in_tetra; auto. }
  split; apply G; auto.
Qed.

(** ** Translations *)
Lemma add3_moment P dx U : add3 (moment P U) (moment dx U) = moment (add3 P dx) U.
Proof. unfold add3, moment. cbn [cx cy cz]. f_equal; ring. Qed.
Lemma translate_init P L dx : anchored_translate (anchored_init P L) dx = anchored_init (add3 P dx) L.
Proof. unfold anchored_translate, anchored_init, plucker_translate, plucker_init. cbn [a_p a_o p_u p_v]. rewrite add3_moment. reflexivity. Qed.
Lemma translate_segment A B dx : plucker_translate (plucker_segment A B) dx = plucker_segment (add3 A dx) (add3 B dx).
Proof.
  unfold plucker_translate, plucker_segment. cbn [p_u p_v]. rewrite add3_moment.
  replace (V3 (cx (add3 B dx) - cx (add3 A dx)) (cy (add3 B dx) - cy (add3 A dx)) (cz (add3 B dx) - cz (add3 A dx)))
    with (V3 (cx B - cx A) (cy B - cy A) (cz B - cz A)); [reflexivity|]. unfold add3. cbn [cx cy cz]. f_equal; ring.
Qed.
Lemma translate_tetra t dx : plucker_tetra_translate (plucker_tetra t) dx = plucker_tetra (tetra_translate t dx).
Proof. unfold plucker_tetra_translate, plucker_tetra. cbn [map]. rewrite !translate_segment. reflexivity. Qed.
