(** * Proofs about rays and tetrahedra. *)
From Coq Require Import Reals Lra Psatz List Bool ZArith Lia.
From Verif Require Import RealBase GeomSpec GeomProofs GeomProofs2.
Import List ListNotations.
Local Open Scope R_scope.

(** ** Weights of the faces *)
Definition w (t : tetra) (P L : v3) (i j : nat) : R := det3 L (sub3 (vertex t i) P) (sub3 (vertex t j) P).
Definition fw (t : tetra) (P L : v3) (f k : nat) : R :=
  w t P L (vertex_idx f (match k with 0 => 1 | 1 => 2 | _ => 0 end)) (vertex_idx f (match k with 0 => 2 | 1 => 0 | _ => 1 end)).
Definition fsum t P L f := fw t P L f 0 + fw t P L f 1 + fw t P L f 2.
Definition Sf (t : tetra) (f : nat) (Y : v3) : R :=
  det3 (sub3 (vertex t (vertex_idx f 0)) Y) (sub3 (vertex t (vertex_idx f 1)) Y) (sub3 (vertex t (vertex_idx f 2)) Y).
Ltac named := repeat match goal with
  | t : tetra |- _ => let a := fresh "x" in let b := fresh "x" in let c := fresh "x" in let d := fresh "x" in destruct t as [a b c d]
  | v : v3 |- _ => let a := fresh "y" in let b := fresh "y" in let c := fresh "y" in destruct v as [a b c] end.
Ltac faces f Hf := assert (f = 0 \/ f = 1 \/ f = 2 \/ f = 3)%nat as [-> | [-> | [-> | ->]]] by lia.
Ltac blow := unfold fsum, fw, Sf, w, plucker_dot, plucker_init, plucker_segment, moment, plucker_tetra, edge in *;
  cbn [vertex_idx nth tetra_idxs plucker_edges plucker_flips vertex p_u p_v fst snd] in *; unfold plucker_segment, moment in *; expand; cbn [cx cy cz t_0 t_1 t_2 t_3 p_u p_v] in *.

Lemma face_dot t P L f k : (f < 4)%nat -> (k < 3)%nat ->
  plucker_dot (plucker_init P L) (edge (plucker_tetra t) (fst (edge_idx f k))) (snd (edge_idx f k)) = fw t P L f k.
Proof.
  intros Hf Hk. faces f Hf; assert (k = 0 \/ k = 1 \/ k = 2)%nat as [-> | [-> | ->]] by lia; named; unfold edge_idx; blow; ring.
Qed.
Lemma sign_dot_spec p q b : fst (sign_dot p q b) = plucker_dot p q b /\ ((0 <=? snd (sign_dot p q b))%Z = Rleb 0 (plucker_dot p q b)) /\
  ((snd (sign_dot p q b) <=? 0)%Z = Rleb (plucker_dot p q b) 0).
Proof.
  unfold sign_dot. cbv zeta. generalize (plucker_dot p q b). intros d. unfold Reqb, Rltb, Rleb.
  destruct (Req_EM_T d 0); [|destruct (Rlt_dec 0 d)]; destruct (Rle_dec 0 d), (Rle_dec d 0); cbn; repeat split; lra.
Qed.

Definition enters t P L f : bool := Rleb 0 (fw t P L f 0) && Rleb 0 (fw t P L f 1) && Rleb 0 (fw t P L f 2).
Definition leaves t P L f : bool := Rleb (fw t P L f 0) 0 && Rleb (fw t P L f 1) 0 && Rleb (fw t P L f 2) 0.
Definition fbary t P L f : bary := Bary (fw t P L f 0) (fw t P L f 1) (fw t P L f 2) f.

Lemma bary_face_eq t P L f st : (f < 4)%nat -> bary_face (plucker_tetra t) (plucker_init P L) f st =
  let '(en, le) := st in
  if match en with None => enters t P L f | _ => false end then (Some (fbary t P L f), le)
  else if match le with None => leaves t P L f | _ => false end then (en, Some (fbary t P L f)) else (en, le).
Proof.
  intros Hf. unfold bary_face. pose proof (fun k => face_dot t P L f k Hf) as F.
  pose proof (F 0%nat ltac:(lia)) as F0. pose proof (F 1%nat ltac:(lia)) as F1. pose proof (F 2%nat ltac:(lia)) as F2. clear F.
  destruct (edge_idx f 0) as [i0 b0], (edge_idx f 1) as [i1 b1], (edge_idx f 2) as [i2 b2]. cbn [fst snd] in *.
  destruct (sign_dot_spec (plucker_init P L) (edge (plucker_tetra t) i0) b0) as (A0 & B0 & C0).
  destruct (sign_dot_spec (plucker_init P L) (edge (plucker_tetra t) i1) b1) as (A1 & B1 & C1).
  destruct (sign_dot_spec (plucker_init P L) (edge (plucker_tetra t) i2) b2) as (A2 & B2 & C2).
  rewrite F0 in A0, B0, C0. rewrite F1 in A1, B1, C1. rewrite F2 in A2, B2, C2.
  destruct (sign_dot _ _ b0) as [x0 s0], (sign_dot _ _ b1) as [x1 s1], (sign_dot _ _ b2) as [x2 s2]. cbn [fst snd] in *. subst x0 x1 x2.
  destruct st as [en le]. unfold enters, leaves, fbary. rewrite B0, B1, B2, C0, C1, C2. destruct en, le; reflexivity.
Qed.

Lemma bary_sound t P L en le : intersection_bary (plucker_tetra t) (plucker_init P L) = Some (en, le) ->
  exists f g, (f < 4)%nat /\ (g < 4)%nat /\ f <> g /\ en = fbary t P L f /\ le = fbary t P L g /\ enters t P L f = true /\ leaves t P L g = true.
Proof.
  unfold intersection_bary. cbn [bary_loop]. rewrite !(bary_face_eq t P L 3) by lia.
  destruct (enters t P L 3) eqn:E3; [|destruct (leaves t P L 3) eqn:L3]; cbv beta iota; cbn [bary_loop]; rewrite !(bary_face_eq t P L 2) by lia; cbv beta iota;
  destruct (enters t P L 2) eqn:E2, (leaves t P L 2) eqn:L2; cbv beta iota; cbn [bary_loop]; rewrite ?(bary_face_eq t P L 1) by lia; cbv beta iota;
  destruct (enters t P L 1) eqn:E1, (leaves t P L 1) eqn:L1; cbv beta iota; cbn [bary_loop]; rewrite ?(bary_face_eq t P L 0) by lia; cbv beta iota;
  destruct (enters t P L 0) eqn:E0, (leaves t P L 0) eqn:L0; cbv beta iota; intros K; try discriminate; injection K as <- <-;
  match goal with |- exists f g, _ /\ _ /\ _ /\ fbary _ _ _ ?a = _ /\ fbary _ _ _ ?b = _ /\ _ => exists a, b end; repeat split; auto; lia.
Qed.
Lemma bary_complete t P L f g : (f < 4)%nat -> (g < 4)%nat -> enters t P L f = true -> leaves t P L g = true ->
  (forall h, (h < 4)%nat -> enters t P L h = true -> leaves t P L h = true -> False) ->
  exists en le, intersection_bary (plucker_tetra t) (plucker_init P L) = Some (en, le).
Proof.
  intros Hf Hg Ef Lg N. unfold intersection_bary. cbn [bary_loop]. rewrite !(bary_face_eq t P L 3) by lia.
  pose proof (N 0%nat ltac:(lia)) as N0. pose proof (N 1%nat ltac:(lia)) as N1. pose proof (N 2%nat ltac:(lia)) as N2. pose proof (N 3%nat ltac:(lia)) as N3. clear N.
  faces f Hf; faces g Hg; try (exfalso; tauto);
  destruct (enters t P L 3) eqn:E3, (leaves t P L 3) eqn:L3; try (exfalso; tauto); try discriminate; cbv beta iota; cbn [bary_loop]; rewrite ?(bary_face_eq t P L 2) by lia; cbv beta iota;
  destruct (enters t P L 2) eqn:E2, (leaves t P L 2) eqn:L2; try (exfalso; tauto); try discriminate; cbv beta iota; cbn [bary_loop]; rewrite ?(bary_face_eq t P L 1) by lia; cbv beta iota;
  destruct (enters t P L 1) eqn:E1, (leaves t P L 1) eqn:L1; try (exfalso; tauto); try discriminate; cbv beta iota; cbn [bary_loop]; rewrite ?(bary_face_eq t P L 0) by lia; cbv beta iota;
  destruct (enters t P L 0) eqn:E0, (leaves t P L 0) eqn:L0; try (exfalso; tauto); try discriminate; cbv beta iota; eauto.
Qed.

(** ** Planes of the faces *)
Lemma Sf_along t P L l f : (f < 4)%nat -> Sf t f (along P L l) = Sf t f P - l * fsum t P L f.
Proof. intros Hf. faces f Hf; named; blow; ring. Qed.
Lemma w_along t P L l f k : (f < 4)%nat -> (k < 3)%nat -> fw t (along P L l) L f k = fw t P L f k.
Proof. intros Hf Hk. faces f Hf; assert (k = 0 \/ k = 1 \/ k = 2)%nat as [-> | [-> | ->]] by lia; named; blow; ring. Qed.
(** The weighted sum of the vertices, relative to the origin of the ray, is along the ray. *)
Lemma weighted t P L f (p : v3 -> R) : (f < 4)%nat -> p = cx \/ p = cy \/ p = cz ->
  fw t P L f 0 * (p (vertex t (vertex_idx f 0)) - p P) + fw t P L f 1 * (p (vertex t (vertex_idx f 1)) - p P) + fw t P L f 2 * (p (vertex t (vertex_idx f 2)) - p P)
  = Sf t f P * p L.
Proof. intros Hf [-> | [-> | ->]]; faces f Hf; named; blow; ring. Qed.
Definition opposite (f : nat) (a b c d : R) : R := match f with 0%nat => a | 1%nat => b | 2%nat => c | _ => d end.
Lemma Sf_mix t f a b c d : (f < 4)%nat -> a + b + c + d = 1 -> Sf t f (mix3 a b c d (t_0 t) (t_1 t) (t_2 t) (t_3 t)) = - opposite f a b c d * det_tetra t.
Proof. intros Hf E. assert (a = 1 - b - c - d) as -> by lra. faces f Hf; named; unfold opposite; blow; ring. Qed.
Lemma Sf_total t Y : Sf t 0 Y + Sf t 1 Y + Sf t 2 Y + Sf t 3 Y = - det_tetra t.
Proof. named; blow; ring. Qed.
Lemma Sf_coord t Y (p : v3 -> R) : p = cx \/ p = cy \/ p = cz -> Sf t 0 Y * p (t_0 t) + Sf t 1 Y * p (t_1 t) + Sf t 2 Y * p (t_2 t) + Sf t 3 Y * p (t_3 t) = - det_tetra t * p Y.
Proof. intros [-> | [-> | ->]]; named; blow; ring. Qed.
Lemma v3_eq a b : cx a = cx b -> cy a = cy b -> cz a = cz b -> a = b.
Proof. destruct a, b; cbn; intros; subst; reflexivity. Qed.
Lemma in_tetra_iff t Y : 0 < det_tetra t -> (in_tetra t Y <-> forall f, (f < 4)%nat -> Sf t f Y <= 0).
Proof.
  intros D. split.
  - intros (a & b & c & d & Ha & Hb & Hc & Hd & E & ->) f Hf. rewrite Sf_mix by auto. assert (0 <= opposite f a b c d) by (unfold opposite; destruct f as [|[|[|]]]; auto). nra.
  - intros K. pose proof (K 0%nat ltac:(lia)). pose proof (K 1%nat ltac:(lia)). pose proof (K 2%nat ltac:(lia)). pose proof (K 3%nat ltac:(lia)). clear K.
    set (D0 := det_tetra t) in *. assert (I : 0 < / D0) by (apply Rinv_0_lt_compat; auto).
    assert (P : forall s, s <= 0 -> 0 <= - s / D0) by (intros; unfold Rdiv; nra).
    exists (- Sf t 0 Y / D0), (- Sf t 1 Y / D0), (- Sf t 2 Y / D0), (- Sf t 3 Y / D0). repeat split; auto.
    + pose proof (Sf_total t Y) as T. fold D0 in T. replace (_ + _ + _ + _) with (- (Sf t 0 Y + Sf t 1 Y + Sf t 2 Y + Sf t 3 Y) / D0) by (field; lra). rewrite T. field. lra.
    + apply v3_eq; unfold mix3; cbn [cx cy cz].
      * pose proof (Sf_coord t Y cx (or_introl eq_refl)) as T. fold D0 in T. apply Rmult_eq_reg_l with D0; [|lra]. field_simplify; [|lra]. lra.
      * pose proof (Sf_coord t Y cy (or_intror (or_introl eq_refl))) as T. fold D0 in T. apply Rmult_eq_reg_l with D0; [|lra]. field_simplify; [|lra]. lra.
      * pose proof (Sf_coord t Y cz (or_intror (or_intror eq_refl))) as T. fold D0 in T. apply Rmult_eq_reg_l with D0; [|lra]. field_simplify; [|lra]. lra.
Qed.
Lemma interior_neg t X : 0 < det_tetra t -> in_interior t X -> forall f, (f < 4)%nat -> Sf t f X < 0.
Proof.
  intros D (a & b & c & d & Ha & Hb & Hc & Hd & E & ->) f Hf. rewrite Sf_mix by auto.
  assert (0 < opposite f a b c d) by (unfold opposite; destruct f as [|[|[|]]]; auto). nra.
Qed.
