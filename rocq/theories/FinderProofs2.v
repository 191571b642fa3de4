(** * Proofs about the search boxes, periodic distance and the subhalo finders. *)
From Coq Require Import Lra Lia ZArith List Permutation FinFun Sorting.Sorted.
From Verif Require Import LoopFacts ListFacts InterpProofs.
From Verif Require Import GridModel GridSpec GridProofs FinderProofs.
Import ListNotations.
Local Open Scope R_scope.

(** ** Nearest image *)

Lemma wrap_diff_cong W d : exists a : Z, wrap_diff W d = d + IZR a * W.
Proof.
  unfold wrap_diff. destruct (Rltb (W / 2) d).
  - destruct (Rltb (d - W) (- W / 2)); [exists 0%Z; lra|exists (-1)%Z; lra].
  - destruct (Rltb d (- W / 2)); [exists 1%Z; lra|exists 0%Z; lra].
Qed.

Lemma wrap_diff_range W d : 0 < W -> - (3/2) * W <= d <= 3/2 * W -> - W / 2 <= wrap_diff W d <= W / 2.
Proof.
  intros HW Hd. unfold wrap_diff.
  destruct (Rltb (W / 2) d) eqn:E1; [apply Rltb_true in E1|apply Rltb_false in E1];
  match goal with |- context [Rltb ?a ?b] => destruct (Rltb a b) eqn:E2; [apply Rltb_true in E2|apply Rltb_false in E2] end; lra.
Qed.

Lemma sq_min W d (a : Z) : 0 < W -> - W / 2 <= d <= W / 2 -> d * d <= (d + IZR a * W) ^ 2.
Proof.
  intros HW Hd. replace ((d + IZR a * W) ^ 2) with (d * d + IZR a * W * (2 * d + IZR a * W)) by ring.
  enough (0 <= IZR a * W * (2 * d + IZR a * W)) by lra.
  destruct (Z.lt_trichotomy a 0) as [H|[->|H]].
  - assert (IZR a <= -1) by (apply IZR_le; lia).
    replace (IZR a * W * (2 * d + IZR a * W)) with ((- IZR a) * W * (- (2 * d + IZR a * W))) by ring.
    apply Rmult_le_pos; [apply Rmult_le_pos; lra|]. assert (IZR a * W <= -1 * W) by (apply Rmult_le_compat_r; lra). lra.
  - lra.
  - assert (1 <= IZR a) by (apply IZR_le; lia).
    apply Rmult_le_pos; [apply Rmult_le_pos; lra|]. assert (1 * W <= IZR a * W) by (apply Rmult_le_compat_r; lra). lra.
Qed.

Lemma wrap_diff_min W d (b : Z) : 0 < W -> - (3/2) * W <= d <= 3/2 * W ->
  wrap_diff W d * wrap_diff W d <= (d + IZR b * W) ^ 2.
Proof.
  intros HW Hd. pose proof (wrap_diff_range W d HW Hd) as Hr. destruct (wrap_diff_cong W d) as (a & Ea).
  pose proof (sq_min W (wrap_diff W d) (b - a) HW Hr) as H. rewrite minus_IZR in H.
  replace (d + IZR b * W) with (wrap_diff W d + (IZR b - IZR a) * W) by (rewrite Ea; ring). exact H.
Qed.

Definition inb (W x : R) : Prop := 0 <= x <= W.

Lemma dist2_nearest W x1 y1 z1 x2 y2 z2 : 0 < W -> inb W x1 -> inb W y1 -> inb W z1 -> inb W x2 -> inb W y2 -> inb W z2 ->
  nearest2 W x1 y1 z1 x2 y2 z2 (dist2 W x1 y1 z1 x2 y2 z2).
Proof.
  unfold inb. intros HW X1 Y1 Z1 X2 Y2 Z2. split.
  - destruct (wrap_diff_cong W (x1 - x2)) as (a & Ea). destruct (wrap_diff_cong W (y1 - y2)) as (b & Eb).
    destruct (wrap_diff_cong W (z1 - z2)) as (d & Ed). exists a, b, d. unfold dist2. rewrite Ea, Eb, Ed. ring.
  - intros a b d. unfold dist2. cbv zeta.
    pose proof (wrap_diff_min W (x1 - x2) a HW ltac:(lra)). pose proof (wrap_diff_min W (y1 - y2) b HW ltac:(lra)).
    pose proof (wrap_diff_min W (z1 - z2) d HW ltac:(lra)). lra.
Qed.

Lemma dist2_within W r x1 y1 z1 x2 y2 z2 : 0 < W -> inb W x1 -> inb W y1 -> inb W z1 -> inb W x2 -> inb W y2 -> inb W z2 ->
  dist2 W x1 y1 z1 x2 y2 z2 <= r * r <-> within W r x1 y1 z1 x2 y2 z2.
Proof.
  intros. destruct (dist2_nearest W x1 y1 z1 x2 y2 z2) as ((a & b & d & E) & Hm); auto. split.
  - intros Hd. exists a, b, d. rewrite E. lra.
  - intros (a' & b' & d' & Hd). pose proof (Hm a' b' d'). lra.
Qed.

Lemma wrap_diff_abs r d e f : 0 <= r -> d * d + e * e + f * f <= r * r -> - r <= d <= r.
Proof. intros Hr H. assert (d * d <= r * r) by nra. split; nra. Qed.

(** ** Search boxes *)

Section Box.
Variables (W : R) (c : nat).
Hypothesis (HW : 0 < W) (Hc : (0 < c)%nat).
Let cw := W / INR c.

Lemma cw_pos : 0 < cw.
Proof. unfold cw. apply Rdiv_lt_0_compat; [assumption|]. apply lt_0_INR. lia. Qed.

Lemma W_cw : W = INR c * cw.
Proof. unfold cw. field. apply not_0_INR. lia. Qed.

Lemma trunc_bounds x : 0 <= x -> (0 <= Rtrunc (x / cw))%Z /\ IZR (Rtrunc (x / cw)) * cw <= x < (IZR (Rtrunc (x / cw)) + 1) * cw.
Proof.
  intros Hx. pose proof cw_pos as Hcw.
  assert (Hq : 0 <= x / cw) by (apply Rmult_le_pos; [lra|left; apply Rinv_0_lt_compat; lra]).
  destruct (Rtrunc_pos _ Hq) as (T0 & T1). assert (Hxq : x = x / cw * cw) by (field; lra).
  split; [exact T0|]. split.
  - rewrite Hxq at 2. apply Rmult_le_compat_r; lra.
  - rewrite Hxq at 1. apply Rmult_lt_compat_r; lra.
Qed.

(** A search interval and the slices it visits. *)
Definition fits (r : R) : Prop := 0 <= r /\ 2 * r <= W - cw.

Definition visited (b : Z * Z) : list nat := map (fun d => Z.to_nat (cell_at (fst b) c d)) (seq 0 (Z.to_nat (snd b))).

Lemma bounds_facts p r : inb W p -> fits r ->
  let b := sphere_bounds1 p r cw W in
  exists mn k : R, (k = 0 \/ k = 1) /\ mn = p - r + k * W /\ 0 <= mn <= W /\
    fst b = Rtrunc (mn / cw) /\ (0 <= fst b <= Z.of_nat c)%Z /\
    (1 <= snd b <= Z.of_nat c)%Z /\ (fst b + snd b - 1)%Z = Rtrunc ((mn + 2 * r) / cw) /\ mn + 2 * r < 2 * W.
Proof.
  intros (Hp0 & Hp1) (Hr0 & Hr1). pose proof cw_pos as Hcw. pose proof W_cw as EW. unfold sphere_bounds1. cbv zeta.
  set (k := if Rltb (p - r) 0 then 1 else 0).
  set (mn := p - r + k * W).
  replace (if Rltb (p - r) 0 then p - r + W else p - r) with mn by (unfold mn, k; destruct (Rltb (p - r) 0); ring).
  replace (if Rltb (p - r) 0 then p + r + W else p + r) with (mn + 2 * r) by (unfold mn, k; destruct (Rltb (p - r) 0); ring).
  assert (Hmn : 0 <= mn <= W).
  { unfold mn, k. destruct (Rltb (p - r) 0) eqn:E; [apply Rltb_true in E|apply Rltb_false in E]; lra. }
  assert (Hk : k = 0 \/ k = 1) by (unfold k; destruct (Rltb (p - r) 0); auto).
  assert (Hmx : mn + 2 * r < 2 * W) by lra.
  exists mn, k. split; [exact Hk|]. split; [reflexivity|]. split; [exact Hmn|]. cbn [fst snd]. split; [reflexivity|].
  destruct (trunc_bounds mn) as (T0 & T1 & T2); [lra|]. destruct (trunc_bounds (mn + 2 * r)) as (U0 & U1 & U2); [lra|].
  set (a := Rtrunc (mn / cw)) in *. set (b := Rtrunc ((mn + 2 * r) / cw)) in *.
  split; [split; [exact T0|]|].
  { apply le_IZR. rewrite <- INR_IZR_INZ. apply Rmult_le_reg_r with cw; lra. }
  split; [split|split; [lia|exact Hmx]].
  - enough (a < b + 1)%Z by lia. apply lt_IZR. rewrite plus_IZR. apply Rmult_lt_reg_r with cw; [lra|].
    rewrite Rmult_plus_distr_r in *. lra.
  - enough (b - a + 1 < Z.of_nat c + 1)%Z by lia. apply lt_IZR.
    rewrite plus_IZR, minus_IZR, (plus_IZR (Z.of_nat c)), <- INR_IZR_INZ.
    apply Rmult_lt_reg_r with cw; [lra|]. rewrite !Rmult_plus_distr_r in *. rewrite Rmult_minus_distr_r. lra.
Qed.

Lemma cell_at_range b d : (0 <= fst b <= Z.of_nat c)%Z -> (d < Z.to_nat (snd b))%nat -> (1 <= snd b <= Z.of_nat c)%Z ->
  (0 <= cell_at (fst b) c d < Z.of_nat c)%Z.
Proof. intros H1 H2 H3. unfold cell_at. destruct (Z.leb_spec (Z.of_nat c) (fst b + Z.of_nat d)); lia. Qed.

Lemma cell_at_inj b d d' : (0 <= fst b <= Z.of_nat c)%Z -> (1 <= snd b <= Z.of_nat c)%Z ->
  (d < Z.to_nat (snd b))%nat -> (d' < Z.to_nat (snd b))%nat -> cell_at (fst b) c d = cell_at (fst b) c d' -> d = d'.
Proof.
  intros H1 H2 H3 H4. unfold cell_at.
  destruct (Z.leb_spec (Z.of_nat c) (fst b + Z.of_nat d)), (Z.leb_spec (Z.of_nat c) (fst b + Z.of_nat d')); lia.
Qed.

Lemma visited_NoDup p r : inb W p -> fits r -> NoDup (visited (sphere_bounds1 p r cw W)).
Proof.
  intros Hp Hr. destruct (bounds_facts p r Hp Hr) as (mn & k & _ & _ & _ & _ & H1 & H2 & _).
  set (b := sphere_bounds1 p r cw W) in *. unfold visited.
  assert (G : forall l, (forall d, In d l -> (d < Z.to_nat (snd b))%nat) -> NoDup l ->
     NoDup (map (fun d => Z.to_nat (cell_at (fst b) c d)) l)).
  { induction l as [|d l IH]; intros Hl N; [constructor|]. inversion N as [|d0 l0 Hn N']; subst. cbn [map]. constructor.
    - intros Hin. apply in_map_iff in Hin. destruct Hin as (d' & E & Hd').
      pose proof (cell_at_range b d H1 (Hl d (or_introl eq_refl)) H2).
      pose proof (cell_at_range b d' H1 (Hl d' (or_intror Hd')) H2).
      assert (d' = d). { apply (cell_at_inj b); auto; [apply Hl; now right|apply Hl; now left|lia]. }
      subst. contradiction.
    - apply IH; auto. intros; apply Hl; now right. }
  apply G; [|apply seq_NoDup]. intros d Hd. apply in_seq in Hd. lia.
Qed.

Lemma visited_lt p r k : inb W p -> fits r -> In k (visited (sphere_bounds1 p r cw W)) -> (k < c)%nat.
Proof.
  intros Hp Hr. destruct (bounds_facts p r Hp Hr) as (mn & k0 & _ & _ & _ & _ & H1 & H2 & _).
  unfold visited. intros Hin. apply in_map_iff in Hin. destruct Hin as (d & <- & Hd). apply in_seq in Hd.
  pose proof (cell_at_range _ d H1 ltac:(lia) H2). lia.
Qed.

Lemma int_between (a b : Z) x : IZR a <= x < IZR a + 1 -> IZR b <= x < IZR b + 1 -> a = b.
Proof.
  intros Ha Hb. assert (a < b + 1)%Z by (apply lt_IZR; rewrite plus_IZR; lra).
  assert (b < a + 1)%Z by (apply lt_IZR; rewrite plus_IZR; lra). lia.
Qed.

(** Every point whose nearest image is within r of p lies in a visited slice. *)
Lemma visited_covers p r s : inb W p -> fits r -> inb W s -> - r <= wrap_diff W (p - s) <= r ->
  In (sl W c s) (visited (sphere_bounds1 p r cw W)).
Proof.
  intros Hp Hr Hs Hd. pose proof cw_pos as Hcw. pose proof W_cw as EW.
  destruct (bounds_facts p r Hp Hr) as (mn & k & Hk & Emn & Hmn & Eb & H1 & H2 & Emx & Hmx).
  set (b := sphere_bounds1 p r cw W) in *. clearbody b.
  destruct (sl_spec W c s HW Hc) as (_ & Hsl & Hsb). { unfold inb, ok1 in *. lra. } fold cw in Hsb.
  set (q := sl W c s) in *. clearbody q.
  destruct (wrap_diff_cong W (p - s)) as (m & Em). destruct (wrap1_cong W s) as (m' & Em').
  set (sw := wrap1 W s) in *.
  assert (Hsw : 0 <= sw < W) by (unfold sw; apply wrap1_range; unfold inb in *; lra).
  rewrite Em in Hd.
  (* an image of sw inside [mn, mn + 2r] *)
  assert (Himg : exists j : Z, mn <= sw + IZR j * W <= mn + 2 * r).
  { destruct Hk as [-> | ->].
    - exists (- m - m')%Z. rewrite minus_IZR, opp_IZR. rewrite Em', Emn. lra.
    - exists (- m - m' + 1)%Z. rewrite plus_IZR, minus_IZR, opp_IZR. rewrite Em', Emn. lra. }
  destruct Himg as (j & Hj). destruct Hr as (Hr0 & Hr1).
  assert (Hj01 : (j = 0 \/ j = 1)%Z).
  { assert (-1 < j)%Z. { apply lt_IZR. apply Rmult_lt_reg_r with W; [assumption|]. lra. }
    assert (j < 2)%Z. { apply lt_IZR. apply Rmult_lt_reg_r with W; [assumption|]. lra. }
    lia. }
  clearbody sw. clear Em Em' Hd Hk Emn m m' k.
  destruct (trunc_bounds mn) as (T0 & T1 & T2); [lra|]. rewrite <- Eb in *.
  destruct (trunc_bounds (mn + 2 * r)) as (U0 & U1 & U2); [lra|]. rewrite <- Emx in *.
  (* the slice of the image *)
  set (Q := (Z.of_nat q + j * Z.of_nat c)%Z).
  assert (HQ : IZR Q * cw <= sw + IZR j * W < (IZR Q + 1) * cw).
  { unfold Q. rewrite plus_IZR, mult_IZR, <- !INR_IZR_INZ. rewrite EW. lra. }
  assert (L1 : (fst b < Q + 1)%Z). { apply lt_IZR. rewrite plus_IZR. apply Rmult_lt_reg_r with cw; lra. }
  assert (L2 : (Q < fst b + snd b - 1 + 1)%Z). { apply lt_IZR. rewrite (plus_IZR _ 1). apply Rmult_lt_reg_r with cw; lra. }
  unfold visited. apply in_map_iff. exists (Z.to_nat (Q - fst b)). split.
  - unfold cell_at. rewrite Z2Nat.id by lia.
    destruct (Z.leb_spec (Z.of_nat c) (fst b + (Q - fst b))); destruct Hj01 as [-> | ->]; unfold Q in *; lia.
  - apply in_seq. lia.
Qed.

(** ** Visiting the box *)

Definition boxcells (bx by_ bz : Z * Z) : list nat :=
  flat_map (fun kz => flat_map (fun ky => map (fun kx => flat c kx ky kz) (visited bx)) (visited by_)) (visited bz).

Definition okb (b : Z * Z) : Prop := (0 <= fst b <= Z.of_nat c)%Z /\ (1 <= snd b <= Z.of_nat c)%Z.

Lemma okb_bounds p r : inb W p -> fits r -> okb (sphere_bounds1 p r cw W).
Proof. intros Hp Hr. destruct (bounds_facts p r Hp Hr) as (? & ? & _ & _ & _ & _ & H1 & H2 & _). now split. Qed.

Lemma visit_box_efold {S} n cf g cap bx by_ bz (visit : list nat -> S -> option S) s :
  grid_ok W c n cf n g -> max_length g = Some cap -> okb bx -> okb by_ -> okb bz ->
  visit_box g cap bx by_ bz visit s = efold (fun k s => visit (members cf k n) s) (boxcells bx by_ bz) s.
Proof.
  intros G Ecap (X1 & X2) (Y1 & Y2) (Z1 & Z2). unfold visit_box. rewrite (go_cells _ _ _ _ _ _ G). cbv zeta.
  unfold boxcells, visited. rewrite loop_seq, efold_flat_map, efold_map. apply efold_ext. intros dz s1 Hz. apply in_seq in Hz.
  rewrite loop_seq, efold_flat_map, efold_map. apply efold_ext. intros dy s2 Hy. apply in_seq in Hy.
  rewrite loop_seq, efold_map, efold_map. apply efold_ext. intros dx s3 Hx. apply in_seq in Hx.
  pose proof (cell_at_range bz dz Z1 ltac:(lia) Z2). pose proof (cell_at_range by_ dy Y1 ltac:(lia) Y2).
  pose proof (cell_at_range bx dx X1 ltac:(lia) X2).
  set (kz := Z.to_nat (cell_at (fst bz) c dz)). set (ky := Z.to_nat (cell_at (fst by_) c dy)). set (kx := Z.to_nat (cell_at (fst bx) c dx)).
  replace (cell_at (fst bz) c dz) with (Z.of_nat kz) by (unfold kz; lia).
  replace (cell_at (fst by_) c dy) with (Z.of_nat ky) by (unfold ky; lia).
  replace (cell_at (fst bx) c dx) with (Z.of_nat kx) by (unfold kx; lia).
  replace (Z.of_nat kz * Z.of_nat c * Z.of_nat c + Z.of_nat ky * Z.of_nat c + Z.of_nat kx)%Z with (Z.of_nat (flat c kx ky kz)) by (unfold flat; lia).
  rewrite (read_indexes_ok W c n cf g (flat c kx ky kz) cap G); [reflexivity| |exact Ecap].
  apply flat_lt; unfold kx, ky, kz; lia.
Qed.

Lemma boxcells_In bx by_ bz k : In k (boxcells bx by_ bz) <->
  exists kx ky kz, k = flat c kx ky kz /\ In kx (visited bx) /\ In ky (visited by_) /\ In kz (visited bz).
Proof.
  unfold boxcells. rewrite in_flat_map. split.
  - intros (kz & Hz & H). apply in_flat_map in H. destruct H as (ky & Hy & H). apply in_map_iff in H.
    destruct H as (kx & <- & Hx). exists kx, ky, kz. auto.
  - intros (kx & ky & kz & -> & Hx & Hy & Hz). exists kz. split; [assumption|]. apply in_flat_map. exists ky.
    split; [assumption|]. apply in_map_iff. eauto.
Qed.


Lemma boxcells_NoDup bx by_ bz : NoDup (visited bx) -> NoDup (visited by_) -> NoDup (visited bz) ->
  (forall k, In k (visited bx) -> (k < c)%nat) -> (forall k, In k (visited by_) -> (k < c)%nat) -> (forall k, In k (visited bz) -> (k < c)%nat) ->
  NoDup (boxcells bx by_ bz).
Proof.
  intros Nx Ny Nz Lx Ly Lz. unfold boxcells. apply NoDup_flat_map'; [assumption| |].
  - intros kz Hz. apply NoDup_flat_map'; [assumption| |].
    + intros ky Hy. apply NoDup_map_in; [assumption|]. intros a b Ha Hb E.
      apply (flat_inj c a ky kz b ky kz) in E; auto. tauto.
    + intros a b x Ha Hb Hx1 Hx2. apply in_map_iff in Hx1, Hx2. destruct Hx1 as (u & Eu & Hu), Hx2 as (v & Ev & Hv).
      rewrite <- Ev in Eu. apply flat_inj in Eu; auto. tauto.
  - intros a b x Ha Hb Hx1 Hx2. apply in_flat_map in Hx1, Hx2. destruct Hx1 as (y1 & Hy1 & Hx1), Hx2 as (y2 & Hy2 & Hx2).
    apply in_map_iff in Hx1, Hx2. destruct Hx1 as (u & Eu & Hu), Hx2 as (v & Ev & Hv).
    rewrite <- Ev in Eu. apply flat_inj in Eu; auto. tauto.
Qed.
End Box.
