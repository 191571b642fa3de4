(** * The corners of a slice span the whole intersection of the tetrahedron with the plane. *)
From Coq Require Import Reals Lra Psatz List Bool ZArith Lia.
From Verif Require Import RealBase GeomSpec GeomProofs GeomProofs2 GeomProofs3 GeomProofs5.
Import List ListNotations.
Local Open Scope R_scope.

Definition rsum (l : list R) : R := fold_right Rplus 0 l.

(** Weights on all edges, zero on those that do not cross. *)
Lemma hull_edges (cross : nat -> bool) (P : nat -> R * R) (w : nat -> R) l x y :
  (forall i, In i l -> 0 <= w i) -> (forall i, In i l -> cross i = false -> w i = 0) -> rsum (map w l) = 1 ->
  x = rsum (map (fun i => w i * fst (P i)) l) -> y = rsum (map (fun i => w i * snd (P i)) l) ->
  hull (map fst (flat_map (fun i => if cross i then [(P i, i)] else []) l)) x y.
Proof.
  intros Hp Hz Hs -> ->. exists (map w (filter cross l)).
  assert (G : length (map w (filter cross l)) = length (map fst (flat_map (fun i => if cross i then [(P i, i)] else []) l)) /\
    fold_right Rplus 0 (map w (filter cross l)) = rsum (map w l) /\
    rsum (map (fun i => w i * fst (P i)) l) = fold_right Rplus 0 (map (fun p => fst p * fst (snd p)) (List.combine (map w (filter cross l)) (map fst (flat_map (fun i => if cross i then [(P i, i)] else []) l)))) /\
    rsum (map (fun i => w i * snd (P i)) l) = fold_right Rplus 0 (map (fun p => fst p * snd (snd p)) (List.combine (map w (filter cross l)) (map fst (flat_map (fun i => if cross i then [(P i, i)] else []) l))))).
  { clear Hs Hp. induction l as [|i l IH]; [cbn; auto|]. destruct (IH (fun k Hk => Hz k (or_intror Hk))) as (A & B & C & D). unfold rsum in *.
    cbn [filter flat_map map fold_right]. destruct (cross i) eqn:K.
    - cbn [map app length List.combine fold_right fst snd]. repeat split; congruence || (f_equal; assumption).
    - rewrite (Hz i) by (auto; left; auto). cbn [app]. repeat split; auto; rewrite ?Rmult_0_l, ?Rplus_0_l; auto. }
  destruct G as (A & B & C & D). repeat split; auto; try congruence.
  intros v Hv. apply in_map_iff in Hv. destruct Hv as (i & <- & Hi). apply filter_In in Hi. apply Hp, Hi.
Qed.

Section Weights.
Variable b : nat -> bool.
Variables L Z : nat -> R.
Variable z : R.
Definition msr (s e : nat) : R := if xorb (b s) (b e) then L s * L e * (if b s then Z e - Z s else Z s - Z e) else 0.
Definition mom (X : nat -> R) (s e : nat) : R :=
  if xorb (b s) (b e) then (if b s then L s * L e * (X s * (Z e - z) + X e * (z - Z s)) else L s * L e * (X s * (z - Z e) + X e * (Z s - z))) else 0.
Definition low (f : nat -> R) : R := rsum (map (fun i => if b i then f i else 0) (seq 0 4)).
Definition high (f : nat -> R) : R := rsum (map (fun i => if b i then 0 else f i) (seq 0 4)).
Definition pairs (f : nat -> nat -> R) : R := rsum (map (fun i => f (nth i edge_starts 0%nat) (nth i edge_ends 0%nat)) (seq 0 6)).
Lemma msr_sum : pairs msr = low L * high (fun i => L i * (Z i - z)) + high L * low (fun i => L i * (z - Z i)).
Proof.
  unfold pairs, msr, low, high, rsum. cbn [map seq fold_right nth edge_starts edge_ends].
  destruct (b 0%nat), (b 1%nat), (b 2%nat), (b 3%nat); cbn [xorb]; ring.
Qed.
Lemma mom_sum X : pairs (mom X) = low (fun i => L i * X i) * high (fun i => L i * (Z i - z)) + high (fun i => L i * X i) * low (fun i => L i * (z - Z i)).
Proof.
  unfold pairs, mom, low, high, rsum. cbn [map seq fold_right nth edge_starts edge_ends].
  destruct (b 0%nat), (b 1%nat), (b 2%nat), (b 3%nat); cbn [xorb]; ring.
Qed.
Lemma low_high f : low f + high f = f 0%nat + f 1%nat + f 2%nat + f 3%nat.
Proof. unfold low, high, rsum. cbn [map seq fold_right]. destruct (b 0%nat), (b 1%nat), (b 2%nat), (b 3%nat); ring. Qed.
(** All weight on the edges from one low vertex. *)
Definition star (v s e : nat) : R := if xorb (b s) (b e) then (if Nat.eqb s v then L e else if Nat.eqb e v then L s else 0) else 0.
End Weights.

Lemma rsum_div (w : nat -> R) c l : rsum (map (fun i => w i / c) l) = rsum (map w l) / c.
Proof. unfold rsum. induction l as [|i l IH]; cbn [map fold_right]; [unfold Rdiv; ring|]. rewrite IH. unfold Rdiv. ring. Qed.
Lemma rsum_ext (f g : nat -> R) l : (forall i, In i l -> f i = g i) -> rsum (map f l) = rsum (map g l).
Proof. intros H. unfold rsum. induction l as [|i l IH]; [reflexivity|]. cbn [map fold_right]. rewrite H by (left; auto). f_equal. apply IH. intros; apply H; right; auto. Qed.

Lemma star_sum b F v : (v < 4)%nat -> b v = true -> pairs (star b F v) = high b F.
Proof.
  intros Hv Bv. unfold pairs, star, high, rsum. cbn [map seq fold_right nth edge_starts edge_ends].
  do 4 (destruct v as [|v]; [rewrite Bv; destruct (b 0%nat), (b 1%nat), (b 2%nat), (b 3%nat); try discriminate Bv; cbn [xorb Nat.eqb]; ring|]). lia.
Qed.

Lemma slice_complete t z x y i0 : (i0 < 4)%nat -> cz (vertex t i0) < z -> in_tetra t (V3 x y z) ->
  hull (map fst (slice_points t (plucker_tetra t) z)) x y.
Proof.
  intros Hi0 Hlow (a & b0 & c & d & Ha & Hb & Hc & Hd & Hs & E).
  set (L := fun i : nat => match i with 0%nat => a | 1%nat => b0 | 2%nat => c | _ => d end).
  set (b := is_low t z). set (Zv := fun i => cz (vertex t i)). set (X := fun i => cx (vertex t i)). set (Y := fun i => cy (vertex t i)).
  assert (HL : forall i, 0 <= L i) by (intros [|[|[|[|]]]]; cbn; auto).
  assert (Hx : x = L 0%nat * X 0%nat + L 1%nat * X 1%nat + L 2%nat * X 2%nat + L 3%nat * X 3%nat) by (injection E; intros; cbn; auto).
  assert (Hy : y = L 0%nat * Y 0%nat + L 1%nat * Y 1%nat + L 2%nat * Y 2%nat + L 3%nat * Y 3%nat) by (injection E; intros; cbn; auto).
  assert (Hz : z = L 0%nat * Zv 0%nat + L 1%nat * Zv 1%nat + L 2%nat * Zv 2%nat + L 3%nat * Zv 3%nat) by (injection E; intros; cbn; auto).
  assert (HS : L 0%nat + L 1%nat + L 2%nat + L 3%nat = 1) by (cbn; lra).
  assert (Bl : forall i, b i = true -> Zv i < z) by (intros i K; apply Rltb_iff in K; exact K).
  assert (Bh : forall i, b i = false -> z <= Zv i).
  { intros i K. destruct (Rle_dec z (Zv i)) as [|N]; auto. exfalso. enough (b i = true) by congruence. apply Rltb_iff. unfold Zv in N. lra. }
  clearbody L. clear E Ha Hb Hc Hd Hs a b0 c d.
  set (T := low b (fun i => L i * (z - Zv i))). set (T' := high b (fun i => L i * (Zv i - z))).
  assert (ET : T' = T).
  { pose proof (low_high b (fun i => L i * (Zv i - z))) as K. cbv beta in K. fold T' in K.
    assert (low b (fun i => L i * (Zv i - z)) = - T) by (unfold T, low, rsum; cbn [map seq fold_right]; destruct (b 0%nat), (b 1%nat), (b 2%nat), (b 3%nat); ring).
    enough (L 0%nat * (Zv 0%nat - z) + L 1%nat * (Zv 1%nat - z) + L 2%nat * (Zv 2%nat - z) + L 3%nat * (Zv 3%nat - z) = 0) by lra.
    replace 0 with (z - 1 * z) by ring. rewrite <- HS. rewrite Hz at 5. ring. }
  pose (cross := fun i => crosses_z t (nth i edge_starts 0%nat) (nth i edge_ends 0%nat) z).
  pose (P := fun i => intersect_z (vertex t (nth i edge_starts 0%nat)) (p_u (edge (plucker_tetra t) i)) z).
  assert (HP : forall i, In i (seq 0 6) -> cross i = true -> let s := nth i edge_starts 0%nat in let e := nth i edge_ends 0%nat in
     Zv e - Zv s <> 0 /\ P i = (X s + (X e - X s) * ((z - Zv s) / (Zv e - Zv s)), Y s + (Y e - Y s) * ((z - Zv s) / (Zv e - Zv s)))).
  { intros i Hi Hc s e. apply in_seq in Hi. apply crosses_neq in Hc. fold s e in Hc. unfold P. rewrite edge_dir by lia. fold s e. unfold intersect_z, Reqb. cbn [sub3 cx cy cz].
    assert (NZ : Zv e - Zv s <> 0) by (unfold Zv; lra). split; auto. destruct (Req_EM_T (cz (vertex t e) - cz (vertex t s)) 0); [contradiction|reflexivity]. }
  assert (Hcr : forall i, cross i = xorb (b (nth i edge_starts 0%nat)) (b (nth i edge_ends 0%nat))).
  { intros i. unfold cross, crosses_z, b, is_low. destruct (Rltb _ _), (Rltb _ _); reflexivity. }
  change (slice_points t (plucker_tetra t) z) with (flat_map (fun i => if cross i then [(P i, i)] else []) (seq 0 6)).
  assert (T0 : 0 <= T).
  { unfold T, low, rsum. cbn [map seq fold_right]. assert (K : forall i, 0 <= (if b i then L i * (z - Zv i) else 0)).
    { intros i. destruct (b i) eqn:K; [|lra]. apply Bl in K. apply Rmult_le_pos; auto; lra. } pose proof (K 0%nat). pose proof (K 1%nat). pose proof (K 2%nat). pose proof (K 3%nat). lra. }
  destruct (Req_dec T 0) as [TZ|TN].
  - assert (B0 : b i0 = true) by (apply Rltb_iff; exact Hlow).
    assert (K : forall i, 0 <= (if b i then L i * (z - Zv i) else 0)).
    { intros i. destruct (b i) eqn:K; [|lra]. apply Bl in K. apply Rmult_le_pos; auto; lra. }
    assert (K' : forall i, 0 <= (if b i then 0 else L i * (Zv i - z))).
    { intros i. destruct (b i) eqn:K'; [lra|]. apply Bh in K'. apply Rmult_le_pos; auto; lra. }
    assert (Zl : forall i, (i < 4)%nat -> b i = true -> L i = 0).
    { intros i Hi Bi. assert (V : (if b i then L i * (z - Zv i) else 0) = 0).
      { unfold T, low, rsum in TZ. cbn [map seq fold_right] in TZ. pose proof (K 0%nat). pose proof (K 1%nat). pose proof (K 2%nat). pose proof (K 3%nat).
        do 4 (destruct i as [|i]; [lra|]). lia. }
      rewrite Bi in V. apply Bl in Bi. apply Rmult_integral in V. destruct V; lra. }
    assert (Zh : forall i, (i < 4)%nat -> b i = false -> L i * (Zv i - z) = 0).
    { intros i Hi Bi. rewrite <- ET in TZ. assert (V : (if b i then 0 else L i * (Zv i - z)) = 0).
      { unfold T', high, rsum in TZ. cbn [map seq fold_right] in TZ. pose proof (K' 0%nat). pose proof (K' 1%nat). pose proof (K' 2%nat). pose proof (K' 3%nat).
        do 4 (destruct i as [|i]; [lra|]). lia. }
      rewrite Bi in V. exact V. }
    assert (LZ : forall F, low b (fun i => L i * F i) = 0).
    { intros F. unfold low, rsum. cbn [map seq fold_right].
      assert (W : forall i, (i < 4)%nat -> (if b i then L i * F i else 0) = 0) by (intros i Hi; destruct (b i) eqn:Bi; auto; rewrite Zl by auto; ring).
      rewrite !W by lia. ring. }
    assert (Hse : forall i, In i (seq 0 6) -> (nth i edge_starts 0 < 4)%nat /\ (nth i edge_ends 0 < 4)%nat).
    { intros i Hi. apply in_seq in Hi. do 6 (destruct i as [|i]; [cbn; lia|]). lia. }
    assert (HW : forall (Q : R * R -> R) F, (forall i, In i (seq 0 6) -> cross i = true -> Q (P i) = F (nth i edge_starts 0%nat) + (F (nth i edge_ends 0%nat) - F (nth i edge_starts 0%nat)) *
        ((z - Zv (nth i edge_starts 0%nat)) / (Zv (nth i edge_ends 0%nat) - Zv (nth i edge_starts 0%nat)))) ->
      high b (fun i => L i * F i) = rsum (map (fun i => star b L i0 (nth i edge_starts 0%nat) (nth i edge_ends 0%nat) * Q (P i)) (seq 0 6))).
    { intros Q F HQ. rewrite <- (star_sum b (fun i => L i * F i) i0 Hi0 B0). apply rsum_ext. intros i Hi. specialize (HP i Hi). rewrite Hcr in HP. specialize (HQ i Hi). rewrite Hcr in HQ.
      destruct (Hse i Hi) as (Ss & Se). set (s := nth i edge_starts 0%nat) in *. set (e := nth i edge_ends 0%nat) in *.
      unfold star. destruct (xorb (b s) (b e)) eqn:XB; [|ring]. destruct (HP eq_refl) as (N & _). rewrite (HQ eq_refl).
      destruct (Nat.eqb_spec s i0) as [Es|Es]; [|destruct (Nat.eqb_spec e i0) as [Ee|Ee]; [|ring]].
      - rewrite Es, B0 in XB. assert (Be : b e = false) by (destruct (b e); auto). pose proof (Zh e Se Be) as ZZ. apply Rmult_integral in ZZ. destruct ZZ as [ZZ|ZZ]; [rewrite ZZ; ring|].
        replace z with (Zv e) by lra. field. auto.
      - rewrite Ee, B0 in XB. assert (Bs : b s = false) by (destruct (b s); auto). pose proof (Zh s Ss Bs) as ZZ. apply Rmult_integral in ZZ. destruct ZZ as [ZZ|ZZ]; [rewrite ZZ; ring|].
        replace z with (Zv s) by lra. field. auto. }
    apply hull_edges with (w := fun i => star b L i0 (nth i edge_starts 0%nat) (nth i edge_ends 0%nat)).
    + intros i _. unfold star. destruct (xorb _ _); [|lra]. destruct (Nat.eqb _ _); auto. destruct (Nat.eqb _ _); auto. lra.
    + intros i _ C. rewrite Hcr in C. unfold star. rewrite C. reflexivity.
    + change (pairs (star b L i0) = 1). rewrite star_sum by auto. pose proof (low_high b L) as W. rewrite HS in W.
      enough (low b L = 0) by lra. rewrite <- (LZ (fun _ => 1)). unfold low, rsum. cbn [map seq fold_right]. destruct (b 0%nat), (b 1%nat), (b 2%nat), (b 3%nat); ring.
    + rewrite <- (HW fst X).
      * rewrite Hx, <- low_high with (b := b) (f := fun i => L i * X i). rewrite LZ. ring.
      * intros i Hi C. destruct (HP i Hi C) as (_ & ->). reflexivity.
    + rewrite <- (HW snd Y).
      * rewrite Hy, <- low_high with (b := b) (f := fun i => L i * Y i). rewrite LZ. ring.
      * intros i Hi C. destruct (HP i Hi C) as (_ & ->). reflexivity.
  - apply hull_edges with (w := fun i => msr b L Zv (nth i edge_starts 0%nat) (nth i edge_ends 0%nat) / T).
    + intros i _. set (s := nth i edge_starts 0%nat). set (e := nth i edge_ends 0%nat). unfold msr. apply Rmult_le_pos; [|left; apply Rinv_0_lt_compat; lra].
      destruct (b s) eqn:Bs, (b e) eqn:Be; cbn [xorb]; try lra; repeat apply Rmult_le_pos; auto.
      * apply Bl in Bs. apply Bh in Be. lra.
      * apply Bl in Be. apply Bh in Bs. lra.
    + intros i _ K. rewrite Hcr in K. unfold msr. rewrite K. unfold Rdiv. ring.
    + rewrite rsum_div. change (pairs (msr b L Zv) / T = 1). rewrite (msr_sum b L Zv z). fold T T'. rewrite ET. replace (low b L * T + high b L * T) with ((low b L + high b L) * T) by ring.
      rewrite low_high, HS. field. auto.
    + transitivity (pairs (mom b L Zv z X) / T).
      * rewrite mom_sum. fold T T'. rewrite ET, Hx, <- low_high with (b := b) (f := fun i => L i * X i). field. auto.
      * unfold pairs. rewrite <- rsum_div. apply rsum_ext. intros i Hi. specialize (HP i Hi). rewrite Hcr in HP. unfold msr, mom. destruct (xorb _ _) eqn:K; [|unfold Rdiv; ring].
        destruct (HP eq_refl) as (N & ->). cbn [fst]. destruct (b (nth i edge_starts 0%nat)); field; auto.
    + transitivity (pairs (mom b L Zv z Y) / T).
      * rewrite mom_sum. fold T T'. rewrite ET, Hy, <- low_high with (b := b) (f := fun i => L i * Y i). field. auto.
      * unfold pairs. rewrite <- rsum_div. apply rsum_ext. intros i Hi. specialize (HP i Hi). rewrite Hcr in HP. unfold msr, mom. destruct (xorb _ _) eqn:K; [|unfold Rdiv; ring].
        destruct (HP eq_refl) as (N & ->). cbn [snd]. destruct (b (nth i edge_starts 0%nat)); field; auto.
Qed.

(** Conversely, by convexity. *)
Lemma in_tetra_mix t p q u : 0 <= u <= 1 -> in_tetra t p -> in_tetra t q -> in_tetra t (V3 (u * cx p + (1 - u) * cx q) (u * cy p + (1 - u) * cy q) (u * cz p + (1 - u) * cz q)).
Proof.
  intros Hu (a & b & c & d & Ha & Hb & Hc & Hd & Hs & ->) (a' & b' & c' & d' & Ha' & Hb' & Hc' & Hd' & Hs' & ->).
  exists (u * a + (1 - u) * a'), (u * b + (1 - u) * b'), (u * c + (1 - u) * c'), (u * d + (1 - u) * d').
  assert (P : forall v v', 0 <= v -> 0 <= v' -> 0 <= u * v + (1 - u) * v') by (intros; nra).
  repeat split; auto; [|unfold mix3; cbn [cx cy cz]; f_equal; ring].
  replace (u * a + (1 - u) * a' + (u * b + (1 - u) * b') + (u * c + (1 - u) * c') + (u * d + (1 - u) * d')) with (u * (a + b + c + d) + (1 - u) * (a' + b' + c' + d')) by ring.
  rewrite Hs, Hs'. ring.
Qed.
Lemma hull_in t z pts : (forall p, In p pts -> in_tetra t (V3 (fst p) (snd p) z)) -> forall x y, hull pts x y -> in_tetra t (V3 x y z).
Proof.
  intros Hpts x y (ws & Hl & Hp & Hs & HX & HY).
  assert (G : forall ws pts, length ws = length pts -> (forall v, In v ws -> 0 <= v) -> (forall p, In p pts -> in_tetra t (V3 (fst p) (snd p) z)) ->
    let s := fold_right Rplus 0 ws in 0 <= s /\ (0 < s -> in_tetra t (V3 (fold_right Rplus 0 (map (fun p : R * (R * R) => fst p * fst (snd p)) (List.combine ws pts)) / s)
       (fold_right Rplus 0 (map (fun p => fst p * snd (snd p)) (List.combine ws pts)) / s) z)) /\
     (s = 0 -> fold_right Rplus 0 (map (fun p : R * (R * R) => fst p * fst (snd p)) (List.combine ws pts)) = 0 /\ fold_right Rplus 0 (map (fun p : R * (R * R) => fst p * snd (snd p)) (List.combine ws pts)) = 0)).
  { clear. induction ws as [|v ws IH]; intros [|[px py] pts] Hl Hp H; try discriminate; [cbn; repeat split; lra|]. cbn [List.combine map fold_right fst snd].
    assert (Hv : 0 <= v) by (apply Hp; left; auto). assert (Hq : in_tetra t (V3 px py z)) by (apply (H (px, py)); left; auto).
    specialize (IH pts ltac:(cbn in Hl; lia) (fun u Hu => Hp u (or_intror Hu)) (fun p Hq => H p (or_intror Hq))). cbv zeta in IH.
    set (A := fold_right Rplus 0 (map (fun p : R * (R * R) => fst p * fst (snd p)) (List.combine ws pts))) in *.
    set (B := fold_right Rplus 0 (map (fun p : R * (R * R) => fst p * snd (snd p)) (List.combine ws pts))) in *. set (s := fold_right Rplus 0 ws) in *.
    clearbody A B s. destruct IH as (S0 & Pos & Zer). cbv zeta. split; [lra|]. split.
    - intros Hvs. destruct (Req_dec s 0) as [SZ|SN].
      + destruct (Zer SZ) as (-> & ->). rewrite SZ. replace (V3 _ _ z) with (V3 px py z); auto. f_equal; field; lra.
      + replace (V3 _ _ z) with (let p := V3 px py z in let q := V3 (A / s) (B / s) z in let u := v / (v + s) in
          V3 (u * cx p + (1 - u) * cx q) (u * cy p + (1 - u) * cy q) (u * cz p + (1 - u) * cz q)).
        * cbv zeta. apply in_tetra_mix; auto; [|apply Pos; lra]. split; [apply Rmult_le_pos; [auto|left; apply Rinv_0_lt_compat; lra]|].
          apply Rmult_le_reg_r with (v + s); [lra|]. unfold Rdiv. rewrite Rmult_assoc, Rinv_l by lra. lra.
        * cbn [cx cy cz]. f_equal; field; lra.
    - intros K. assert (V0 : v = 0) by lra. assert (SZ : s = 0) by lra. destruct (Zer SZ) as (-> & ->). subst v. split; ring. }
  destruct (G ws pts Hl Hp Hpts) as (_ & Pos & _). rewrite <- HX, <- HY, Hs in Pos. specialize (Pos ltac:(lra)).
  replace (V3 x y z) with (V3 (x / 1) (y / 1) z) by (f_equal; field). exact Pos.
Qed.
Lemma slice_hull_in t z x y : hull (map fst (slice_points t (plucker_tetra t) z)) x y -> in_tetra t (V3 x y z).
Proof.
  apply hull_in. intros p Hp. apply in_map_iff in Hp. destruct Hp as ([[px py] i] & <- & Hi). cbn [fst snd]. eapply slice_in_tetra; eauto.
Qed.
