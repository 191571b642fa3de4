(** * Proofs about the halo grid. *)
From Coq Require Import Lra Lia ZArith List Permutation FinFun.
From Verif Require Import LoopFacts ListFacts InterpProofs.
From Verif Require Import GridModel GridSpec.
Import ListNotations.
Local Open Scope R_scope.

Inductive lseg (next : list Z) : Z -> list nat -> Prop :=
| lseg_nil : lseg next (-1)%Z []
| lseg_cons i h' l : nth_error next i = Some h' -> lseg next h' l -> lseg next (Z.of_nat i) (i :: l).

Lemma walk_lseg next l : forall fuel h, lseg next h l -> (length l <= fuel)%nat -> walk fuel next h = Some l.
Proof.
  induction l as [|i l IH]; intros fuel h H Hf.
  - inversion H; subst. destruct fuel; reflexivity.
  - inversion H as [|i0 h' l0 E Hl E1 E2]; subst. destruct fuel as [|fuel]; [cbn in Hf; lia|].
    cbn [walk]. destruct (Z.eqb_spec (Z.of_nat i) (-1)) as [Q|_]; [lia|].
    unfold at_. destruct (Z.ltb_spec (Z.of_nat i) 0) as [Q|_]; [lia|]. rewrite Nat2Z.id, E.
    rewrite (IH fuel h' Hl) by (cbn in Hf; lia). reflexivity.
Qed.

Lemma lseg_upd next next' k v l : wr next k v = Some next' -> ~ In k l ->
  forall h, lseg next h l -> lseg next' h l.
Proof.
  intros E. induction l as [|i l IH]; intros Hk h H.
  - inversion H; subst. constructor.
  - inversion H as [|i0 h' l0 E0 Hl]; subst. econstructor; [|apply IH; [intros Q; apply Hk; now right|exact Hl]].
    destruct (wr_inv _ _ _ _ 0%Z E) as (Hlt & Hlen & Hn).
    assert (Hi : (i < length next)%nat) by (apply nth_error_Some; congruence).
    rewrite (nth_error_nth' next' 0%Z) by lia. rewrite Hn.
    destruct (Nat.eqb_spec i k) as [->|_]; [exfalso; apply Hk; now left|].
    rewrite (nth_error_nth' next 0%Z) in E0 by lia. exact E0.
Qed.

(** The points of cell [k] among the first [i], most recent first. *)
Definition members (cf : nat -> nat) (k i : nat) : list nat := filter (fun j => (cf j =? k)%nat) (rev (seq 0 i)).

Lemma rev_seq_S i : rev (seq 0 (S i)) = i :: rev (seq 0 i).
Proof. rewrite seq_S, rev_app_distr. reflexivity. Qed.

Lemma members_S cf k i : members cf k (S i) = if (cf i =? k)%nat then i :: members cf k i else members cf k i.
Proof. unfold members. rewrite rev_seq_S. reflexivity. Qed.

Lemma members_In cf k i j : In j (members cf k i) <-> (j < i)%nat /\ cf j = k.
Proof.
  unfold members. rewrite filter_In, <- in_rev, in_seq. rewrite Nat.eqb_eq. intuition lia.
Qed.

Lemma members_NoDup cf k i : NoDup (members cf k i).
Proof. apply NoDup_filter, NoDup_rev, seq_NoDup. Qed.

Lemma filter_length_le {A} (f : A -> bool) l : (length (filter f l) <= length l)%nat.
Proof. induction l as [|a l IH]; cbn; [lia|]. destruct (f a); cbn; lia. Qed.

Lemma members_length cf k i : (length (members cf k i) <= i)%nat.
Proof. unfold members. etransitivity; [apply filter_length_le|]. rewrite rev_length, seq_length. lia. Qed.

(** ** Coordinates *)

Lemma wrap1_range W x : 0 < W -> - W <= x < 2 * W -> 0 <= wrap1 W x < W.
Proof.
  intros HW Hx. unfold wrap1. destruct (Rleb W x) eqn:E; [apply Rleb_true in E|apply Rleb_false in E]; [lra|].
  destruct (Rltb x 0) eqn:E2; [apply Rltb_true in E2|apply Rltb_false in E2]; lra.
Qed.

Lemma wrap1_cong W x : exists m : Z, wrap1 W x = x + IZR m * W.
Proof.
  unfold wrap1. destruct (Rleb W x); [exists (-1)%Z; lra|]. destruct (Rltb x 0); [exists 1%Z; lra|exists 0%Z; lra].
Qed.

Lemma slice_range W c x : 0 < W -> (0 < c)%nat -> 0 <= x < W ->
  let k := Z.to_nat (Rtrunc (x / (W / INR c))) in
  Rtrunc (x / (W / INR c)) = Z.of_nat k /\ (k < c)%nat /\ INR k * (W / INR c) <= x < (INR k + 1) * (W / INR c).
Proof.
  intros HW Hc Hx k. assert (HcR : 0 < INR c) by (apply lt_0_INR; lia).
  assert (Hcw : 0 < W / INR c) by (apply Rdiv_lt_0_compat; lra).
  set (cw := W / INR c) in *. assert (HWc : W = INR c * cw) by (unfold cw; field; lra).
  assert (Hq : 0 <= x / cw) by (apply Rmult_le_pos; [lra|left; apply Rinv_0_lt_compat; lra]).
  destruct (Rtrunc_pos _ Hq) as (T0 & T1).
  assert (Ek : Rtrunc (x / cw) = Z.of_nat k) by (unfold k; now rewrite Z2Nat.id).
  clearbody k.
  rewrite Ek in T1. rewrite <- INR_IZR_INZ in T1.
  assert (Hxq : x = x / cw * cw) by (field; lra).
  assert (B1 : INR k * cw <= x) by (rewrite Hxq; apply Rmult_le_compat_r; lra).
  assert (B2 : x < (INR k + 1) * cw) by (rewrite Hxq at 1; apply Rmult_lt_compat_r; lra).
  split; [exact Ek|]. split; [|lra].
  apply INR_lt. apply Rmult_lt_reg_r with cw; [lra|]. lra.
Qed.

Definition ok1 (W x : R) : Prop := - W <= x < 2 * W.
Definition sl (W : R) (c : nat) (x : R) : nat := Z.to_nat (Rtrunc (wrap1 W x / (W / INR c))).

Lemma sl_spec W c x : 0 < W -> (0 < c)%nat -> ok1 W x ->
  Rtrunc (wrap1 W x / (W / INR c)) = Z.of_nat (sl W c x) /\ (sl W c x < c)%nat /\
  INR (sl W c x) * (W / INR c) <= wrap1 W x < (INR (sl W c x) + 1) * (W / INR c).
Proof. intros HW Hc Hx. apply slice_range; auto. now apply wrap1_range. Qed.

Lemma sl_has W c x : 0 < W -> (0 < c)%nat -> ok1 W x -> slice_has W c (sl W c x) x.
Proof.
  intros HW Hc Hx. destruct (sl_spec W c x HW Hc Hx) as (_ & H1 & H2). split; [exact H1|].
  destruct (wrap1_cong W x) as (m & Em). exists m. cbv zeta. rewrite <- Em. split; [now apply wrap1_range|exact H2].
Qed.

Definition flat (c kx ky kz : nat) : nat := (kx + ky * c + kz * (c * c))%nat.

Lemma flat_lt c kx ky kz : (kx < c -> ky < c -> kz < c -> flat c kx ky kz < c * c * c)%nat.
Proof.
  intros. unfold flat. assert (ky * c + kx < c * c)%nat by (apply idx_lt; lia).
  assert (kz * (c * c) + (ky * c + kx) < c * (c * c))%nat by (apply idx_lt; lia). lia.
Qed.

Lemma flat_inj c kx ky kz kx' ky' kz' : (kx < c -> ky < c -> kz < c -> kx' < c -> ky' < c -> kz' < c ->
  flat c kx ky kz = flat c kx' ky' kz' -> kx = kx' /\ ky = ky' /\ kz = kz')%nat.
Proof.
  intros. unfold flat in *.
  assert (A : (ky * c + kx < c * c)%nat) by (apply idx_lt; lia).
  assert (B : (ky' * c + kx' < c * c)%nat) by (apply idx_lt; lia).
  destruct (idx_inj kz (ky * c + kx) kz' (ky' * c + kx') (c * c) A B) as [E1 E2]; [lia|].
  destruct (idx_inj ky kx ky' kx' c) as [E3 E4]; auto.
Qed.

Lemma flat_Z c kx ky kz :
  (Z.of_nat kx + Z.of_nat ky * Z.of_nat c + Z.of_nat kz * Z.of_nat c * Z.of_nat c)%Z = Z.of_nat (flat c kx ky kz).
Proof. unfold flat. lia. Qed.

(** The cell of point [i]. *)
Definition cellof (W : R) (c : nat) (xs ys zs : list R) (i : nat) : nat :=
  flat c (sl W c (nth i xs 0)) (sl W c (nth i ys 0)) (sl W c (nth i zs 0)).

Record good_pts (W : R) (c n : nat) (xs ys zs : list R) : Prop := {
  gp_W : 0 < W; gp_c : (0 < c)%nat;
  gp_x : length xs = n; gp_y : length ys = n; gp_z : length zs = n;
  gp_ok : forall i, (i < n)%nat -> ok1 W (nth i xs 0) /\ ok1 W (nth i ys 0) /\ ok1 W (nth i zs 0) }.

(** What the grid looks like after the first [i] insertions. *)
Record grid_ok (W : R) (c n : nat) (cf : nat -> nat) (i : nat) (g : Grid) : Prop := {
  go_cells : g_cells g = c; go_cw : g_cw g = W / INR c; go_W : g_width g = W;
  go_heads : length (g_heads g) = (c * c * c)%nat; go_next : length (g_next g) = n;
  go_seg : forall k, (k < c * c * c)%nat -> lseg (g_next g) (nth k (g_heads g) 0%Z) (members cf k i) }.

Lemma at_nat {A} (l : list A) k d : (k < length l)%nat -> at_ l (Z.of_nat k) = Some (nth k l d).
Proof.
  intros H. unfold at_. destruct (Z.ltb_spec (Z.of_nat k) 0) as [Q|_]; [lia|].
  rewrite Nat2Z.id. now apply nth_error_nth'.
Qed.

Lemma cellof_lt W c n xs ys zs i : good_pts W c n xs ys zs -> (i < n)%nat ->
  (cellof W c xs ys zs i < c * c * c)%nat.
Proof.
  intros G Hi. destruct (gp_ok _ _ _ _ _ _ G i Hi) as (O1 & O2 & O3). destruct G as [HW Hc _ _ _ _].
  unfold cellof. apply flat_lt; eapply sl_spec; eauto.
Qed.

Lemma insert_ok W c n xs ys zs : good_pts W c n xs ys zs ->
  exists g, insert (new_grid c W n) xs ys zs = Some g /\ grid_ok W c n (cellof W c xs ys zs) n g.
Proof.
  intros G. pose proof G as [HW Hc Hx Hy Hz Hok]. unfold insert. rewrite Hx.
  apply (loop_inv (fun i g => grid_ok W c n (cellof W c xs ys zs) i g)).
  - constructor; cbn; auto; try apply repeat_length.
    intros k Hk. 
    replace (nth k (repeat (-1)%Z (c * c * c)) 0%Z) with (-1)%Z. 2:{ symmetry. apply (nth_error_nth _ _ 0%Z). now apply nth_error_repeat. }
    constructor.
  - intros i g Hi [G1 G2 G3 G4 G5 G6].
    rewrite (rd_nth xs i 0) by lia. rewrite (rd_nth ys i 0) by lia. rewrite (rd_nth zs i 0) by lia.
    destruct (Hok i Hi) as (O1 & O2 & O3).
    assert (Ec : cell_idx g (nth i xs 0) (nth i ys 0) (nth i zs 0) = Z.of_nat (cellof W c xs ys zs i)).
    { unfold cell_idx. rewrite G1, G2, G3.
      destruct (sl_spec W c _ HW Hc O1) as (E1 & _). destruct (sl_spec W c _ HW Hc O2) as (E2 & _).
      destruct (sl_spec W c _ HW Hc O3) as (E3 & _). rewrite E1, E2, E3. apply flat_Z. }
    cbv zeta. rewrite Ec. set (k := cellof W c xs ys zs i) in *.
    assert (Hk : (k < c * c * c)%nat) by (eapply cellof_lt; eauto).
    rewrite (at_nat (g_heads g) k 0%Z) by lia.
    destruct (wr_some (g_next g) i (nth k (g_heads g) 0%Z) 0%Z) as (nx & Enx & Lnx & Nnx); [lia|]. rewrite Enx.
    unfold wrz. destruct (Z.ltb_spec (Z.of_nat k) 0) as [Q|_]; [lia|]. rewrite Nat2Z.id.
    destruct (wr_some (g_heads g) k (Z.of_nat i) 0%Z) as (hd & Ehd & Lhd & Nhd); [lia|]. rewrite Ehd.
    eexists. split; [reflexivity|]. constructor; cbn [g_cells g_cw g_width g_heads g_next]; auto; try lia.
    intros k' Hk'. rewrite Nhd, members_S. fold k.
    rewrite (Nat.eqb_sym k k'). destruct (Nat.eqb_spec k' k) as [->|Ne].
    + econstructor. { rewrite (nth_error_nth' nx 0%Z) by lia. rewrite Nnx, Nat.eqb_refl. reflexivity. }
      eapply lseg_upd; [exact Enx| |now apply G6]. intros Q. apply members_In in Q. lia.
    + eapply lseg_upd; [exact Enx| |now apply G6]. intros Q. apply members_In in Q. lia.
Qed.

Lemma cell_list_ok W c n cf g k : grid_ok W c n cf n g -> (k < c * c * c)%nat ->
  cell_list g (Z.of_nat k) = Some (members cf k n).
Proof.
  intros [G1 G2 G3 G4 G5 G6] Hk. unfold cell_list. rewrite (at_nat _ _ 0%Z) by lia.
  apply walk_lseg; [now apply G6|]. rewrite G5. apply members_length.
Qed.

Lemma max_length_ok W c n cf g : grid_ok W c n cf n g ->
  exists m, max_length g = Some m /\ (forall k, (k < c * c * c)%nat -> (length (members cf k n) <= m)%nat) /\
    (m = 0%nat \/ exists k, (k < c * c * c)%nat /\ length (members cf k n) = m).
Proof.
  intros G. unfold max_length, total_cells. rewrite (go_heads _ _ _ _ _ _ G).
  apply (loop_inv (fun i m => (forall k, (k < i)%nat -> (length (members cf k n) <= m)%nat) /\
    (m = 0%nat \/ exists k, (k < c * c * c)%nat /\ length (members cf k n) = m))).
  - split; [lia|now left].
  - intros i m Hi (H1 & H2). unfold grid_length. rewrite (cell_list_ok _ _ _ _ _ _ G Hi). cbn [option_map].
    eexists. split; [reflexivity|]. destruct (Nat.ltb_spec m (length (members cf i n))) as [Q|Q]; split.
    + intros k Hk. destruct (Nat.eq_dec k i) as [->|]; [lia|]. specialize (H1 k ltac:(lia)). lia.
    + right. eauto.
    + intros k Hk. destruct (Nat.eq_dec k i) as [->|]; [lia|]. apply H1. lia.
    + exact H2.
Qed.

Lemma read_indexes_ok W c n cf g k cap : grid_ok W c n cf n g -> (k < c * c * c)%nat -> max_length g = Some cap ->
  read_indexes g (Z.of_nat k) cap = Some (members cf k n).
Proof.
  intros G Hk E. unfold read_indexes. rewrite (cell_list_ok _ _ _ _ _ _ G Hk).
  destruct (max_length_ok _ _ _ _ _ G) as (m & Em & Hm & _). rewrite E in Em. injection Em as <-.
  specialize (Hm k Hk). destruct (Nat.leb_spec (length (members cf k n)) cap) as [_|Q]; [reflexivity|lia].
Qed.
