(** * C149-C153: gotetra files. *)
From Coq Require Import ZArith Reals Lra List Lia Bool Permutation.
From Verif Require Import SheetSpec LoopFacts ListFacts BytesFacts GadgetProofs GadgetProofs2 SheetProofs SheetProofs2.
Import List ListNotations.
Local Open Scope Z_scope.

(** ** C149 *)
(** Reading a complete file, in either byte order, on any machine, with a closed buffer made for files of the same shape, whatever the buffer holds: the positions of
    the grid points whose coordinates are below SegmentWidth, x fastest; no velocities; the same mass for all. The buffer is open afterwards and
    keeps its shape. *)
Theorem C149_segment : forall sys cap b e h pts rest, sheet_good (b_sw b) (b_gw b) h pts -> (b_sw b <= b_gw b)%nat -> b_open b = false ->
  length (b_sheet b) = (12 * (b_gw b * b_gw b * b_gw b))%nat -> (12 * (b_gw b * b_gw b * b_gw b) <= cap)%nat ->
  exists b' ids, sheet_read sys cap b (Some (sheet_file e h pts ++ rest)) =
      FOk (b', Some (segment (b_sw b) (b_gw b) pts, [], repeat (b_mass b) (b_sw b * b_sw b * b_sw b), ids))
    /\ b_open b' = true /\ b_sw b' = b_sw b /\ b_gw b' = b_gw b /\ b_mass b' = b_mass b /\
    length (b_sheet b') = (12 * (b_gw b * b_gw b * b_gw b))%nat.
Proof.
  intros sys cap b e h pts rest Hg Hs Ho Hm Hc. destruct (sheet_read_good sys cap b e h pts rest Hg Hs Ho Hm Hc) as (b' & H1 & H2 & H3 & H4 & H5 & H6 & _).
  exists b', (repeat 0 (b_sw b * b_sw b * b_sw b)). auto 10.
Qed.
Print Assumptions C149_segment.

(** A buffer made from such a file has its shape and is closed, and the header's N is the number of points in a segment. *)
Theorem C149_new : forall uniform sw gw e h pts rest, sheet_good sw gw h pts ->
  exists b, new_sheet_buf uniform (Some (sheet_file e h pts ++ rest)) = FOk b /\ b_open b = false /\ b_sw b = sw /\ b_gw b = gw /\
    length (b_sheet b) = (12 * (gw * gw * gw))%nat /\ b_mass b = uniform h /\
    sheet_header_n (Some (sheet_file e h pts ++ rest)) = FOk (Z.of_nat (length (segment sw gw pts))).
Proof.
  intros uniform sw gw e h pts rest [Hw Hsw Hgw Hc Hs (Hsm1 & Hsm2) Hl Hp]. unfold new_sheet_buf, sheet_header_n. rewrite load_good by exact Hw.
  unfold sh_segmentWidth, sh_gridWidth, sh_int. rewrite Hsw, Hgw, !sign_small by lia.
  rewrite !(proj2 (Z.ltb_ge _ _)) by lia. cbn [orb]. rewrite !Nat2Z.id. eexists. split; [reflexivity|]. cbn [b_open b_sw b_gw b_sheet b_mass].
  repeat split.
  - apply repeat_length.
  - f_equal. rewrite segment_triples, map_length, triples_length. lia.
Qed.
Print Assumptions C149_new.

(** The comment on the file format (gotetra.go:102-103) has the flags the other way round; a little endian file that follows it (flag -1) is refused. *)
Theorem C149_documented_flag_refuted : forall h pts, Forall2 word sheet_layout h ->
  load_sheet_header (Some (put_int LE 4 (-1) ++ put_int LE 4 152 ++ put_words LE sheet_layout h ++ flat_map (fun p => flat_map (put LE 4) p) pts)) = FErr.
Proof.
  intros h pts Hw. unfold load_sheet_header.
  match goal with |- context [read_i32 LE (put_int LE 4 ?v ++ ?s)] => destruct (read_i32_app LE v s) as (w & -> & ->) end.
  change (get_int LE (put_int LE 4 (-1))) with (-1). change (endianness (-1)) with (Some BE). cbv iota beta.
  unfold read_i32. rewrite read_full_app by apply put_int_length. change (get_int BE (put_int LE 4 152)) with (-1744830464). reflexivity.
Qed.
Print Assumptions C149_documented_flag_refuted.

(** ** C150 *)
Lemma read_in_turn_good sys cap sw gw es hs pts : (sw <= gw)%nat -> (12 * (gw * gw * gw) <= cap)%nat -> forall idxs b,
  (forall i, In i idxs -> sheet_good sw gw (hs i) (pts i)) -> b_sw b = sw -> b_gw b = gw -> b_open b = false ->
  length (b_sheet b) = (12 * (gw * gw * gw))%nat ->
  read_in_turn sys cap b (map (fun i : nat => Some (sheet_file (es i) (hs i) (pts i))) idxs) = FOk (map (fun i => segment sw gw (pts i)) idxs).
Proof.
  intros Hs Hc. induction idxs as [|i idxs IH]; intros b Hg H1 H2 H3 H4; cbn [map read_in_turn]; [reflexivity|].
  pose proof (sheet_read_good sys cap b (es i) (hs i) (pts i) []) as H. rewrite H1, H2 in H.
  destruct H as (b' & E & O & S1 & S2 & _ & S3 & _); auto.
  { apply Hg. now left. }
  rewrite app_nil_r in E. rewrite E. unfold sheet_close. rewrite O.
  rewrite IH; [reflexivity| | | | |]; cbn [b_sw b_gw b_open b_sheet]; auto; try congruence.
  intros j Hj. apply Hg. now right.
Qed.

(** All files of a snapshot read in turn with one buffer: every particle of the snapshot is returned exactly once, by exactly one of the files. *)
Theorem C150_once : forall sys cap sw gw C G es hs pts b, (0 < sw <= gw)%nat -> (0 < C)%nat -> (12 * (gw * gw * gw) <= cap)%nat ->
  sheet_snapshot sw gw C G hs pts -> b_sw b = sw -> b_gw b = gw -> b_open b = false -> length (b_sheet b) = (12 * (gw * gw * gw))%nat ->
  exists outs, read_in_turn sys cap b (map (fun i : nat => Some (sheet_file (es i) (hs i) (pts i))) (seq 0 (C * C * C))) = FOk outs /\
    length outs = (C * C * C)%nat /\ Permutation (concat outs) (map G (triples (C * sw))).
Proof.
  intros sys cap sw gw C G es hs pts b (Hs0 & Hs) HC Hcap Hsnap H1 H2 H3 H4.
  exists (map (fun i => segment sw gw (pts i)) (seq 0 (C * C * C))). split; [|split].
  - apply read_in_turn_good; auto. intros i Hi. apply in_seq in Hi. apply Hsnap. lia.
  - now rewrite map_length, seq_length.
  - rewrite <- flat_map_concat_map.
    rewrite <- (Permutation_map G (cells_partition sw C Hs0 HC)). rewrite map_flat_map.
    assert (E : flat_map (fun i => segment sw gw (pts i)) (seq 0 (C * C * C)) = flat_map (fun a => map G (shifted sw (cell_of C a))) (seq 0 (C * C * C))).
    { rewrite !flat_map_concat_map. f_equal. apply map_ext_in. intros idx Hi. apply in_seq in Hi. destruct (Hsnap idx) as (_ & HG); [lia|].
      rewrite segment_triples. unfold shifted. destruct (cell_of C idx) as ((cx, cy), cz) eqn:Ec. rewrite map_map. apply map_ext_in.
      intros ((x, y), z) Ht. apply in_triples in Ht. apply HG; apply Ht. }
    rewrite E. reflexivity.
Qed.
Print Assumptions C150_once.

(** The cell that the header's index stands for (fileCoords): x fastest, every coordinate below the number of cells. *)
Theorem C150_file_coords : forall cells ix iy iz, 0 <= ix < cells -> 0 <= iy < cells -> 0 <= iz < cells ->
  file_coords (ix + cells * iy + cells * cells * iz) cells = (ix, iy, iz).
Proof.
  intros c ix iy iz Hx Hy Hz. unfold file_coords. assert (0 < c) by lia. assert (0 <= c * iy) by nia. assert (0 <= c * c * iz) by nia.
  rewrite !Z.quot_div_nonneg, !Z.rem_mod_nonneg by (try apply Z.div_pos; nia).
  assert (E : ix + c * iy + c * c * iz = (iy + c * iz) * c + ix) by ring.
  assert (D : (ix + c * iy + c * c * iz) / c = iy + c * iz).
  { rewrite E, Z.div_add_l by lia. rewrite Z.div_small by lia. lia. }
  rewrite D. repeat f_equal.
  - rewrite E, Z.add_comm, Z.mod_add by lia. apply Z.mod_small. lia.
  - rewrite Z.mul_comm, Z.mod_add by lia. apply Z.mod_small. lia.
  - rewrite <- Z.div_div by lia. rewrite D. rewrite (Z.mul_comm c iz), Z.div_add by lia. rewrite Z.div_small by lia. lia.
Qed.
Print Assumptions C150_file_coords.

(** ** C151 *)
(** Whatever a closed buffer holds, reading a file that does not exist, or whose header is cut off after its size, reports no error and returns points again. *)
Theorem C151_stale_refuted : forall sys cap b e h pts rest missing, sheet_good (b_sw b) (b_gw b) h pts -> (b_sw b <= b_gw b)%nat -> b_open b = false ->
  length (b_sheet b) = (12 * (b_gw b * b_gw b * b_gw b))%nat -> (12 * (b_gw b * b_gw b * b_gw b) <= cap)%nat ->
  (missing = None \/ exists e' s, missing = Some (put_int LE 4 (flag_of e') ++ put_int e' 4 152 ++ s) /\ (length s < 152)%nat) ->
  read_in_turn sys cap b [Some (sheet_file e h pts ++ rest); missing] = FOk [segment (b_sw b) (b_gw b) pts; segment (b_sw b) (b_gw b) pts].
Proof.
  intros sys cap b e h pts rest missing Hg Hs Ho Hm Hc Hmiss.
  destruct (sheet_read_good sys cap b e h pts rest Hg Hs Ho Hm Hc) as (b' & E & O & S1 & S2 & S3 & S4 & S5).
  assert (L : load_sheet_header missing = FErr).
  { destruct Hmiss as [->|(e' & s & -> & Hl)]; [reflexivity|]. unfold load_sheet_header.
    match goal with |- context [read_i32 LE (put_int LE 4 ?v ++ ?s)] => destruct (read_i32_app LE v s) as (w & -> & ->) end.
    rewrite get_put_int by (destruct e'; unfold int_range; cbn; lia).
    assert (endianness (flag_of e') = Some e') as -> by (destruct e'; reflexivity).
    match goal with |- context [read_i32 e' (put_int e' 4 ?v ++ ?s)] => destruct (read_i32_app e' v s) as (w & -> & ->) end.
    rewrite get_put_int by (unfold int_range; cbn; lia). cbn [Z.eqb Pos.eqb negb]. rewrite read_full_short by exact Hl. reflexivity. }
  cbn [read_in_turn]. rewrite E. unfold sheet_close. rewrite O. unfold sheet_read at 1. cbn [b_open b_sheet b_sw b_gw]. cbv zeta.
  unfold read_sheet_positions. rewrite L. rewrite S1, S2, S5. rewrite segment_points_spec; [|apply (sg_len _ _ _ _ Hg)|exact Hs]. reflexivity.
Qed.
Print Assumptions C151_stale_refuted.

(** A file with another number of points is reported; afterwards the buffer counts as open. *)
Theorem C151_wrong_shape : forall sys cap b e h pts rest, b_open b = false -> Forall2 word sheet_layout h -> 0 <= nth 8 h 0 < 2 ^ 63 ->
  nth 8 h 0 <> Z.of_nat (b_gw b * b_gw b * b_gw b) ->
  exists b', sheet_read sys cap b (Some (sheet_file e h pts ++ rest)) = FOk (b', None) /\ b_open b' = true.
Proof.
  intros sys cap b e h pts rest Ho Hw H8 Hne. unfold sheet_read. rewrite Ho. cbv zeta. unfold read_sheet_positions. rewrite load_good by exact Hw.
  unfold sh_gridCount, sh_int. rewrite sign_small by exact H8. rewrite (proj2 (Z.eqb_neq _ _)) by exact Hne. cbn [negb]. eexists. split; reflexivity.
Qed.
Print Assumptions C151_wrong_shape.

(** ** C152 *)
(** Every particle of every file gets the id 0. *)
Theorem C152_ids_refuted : forall sys cap b file b' xs vs ms ids, sheet_read sys cap b file = FOk (b', Some (xs, vs, ms, ids)) ->
  vs = [] /\ ids = repeat 0 (b_sw b * b_sw b * b_sw b).
Proof.
  intros sys cap b file b' xs vs ms ids H. unfold sheet_read in H. destruct (b_open b); [discriminate|]. cbv zeta in H.
  destruct (read_sheet_positions _ _ _ _ _); [|discriminate|discriminate]. destruct (segment_points _ _ _); [|discriminate].
  injection H as _ _ <- _ <-. split; reflexivity.
Qed.
Print Assumptions C152_ids_refuted.

(** ** Examples: a simulation of 8 files with one particle each and grids of 8 points. *)
Definition sh_ex_header : list Z := repeat 0 4 ++ [8; 2; 1; 2; 8; 0; 2; 0; 0] ++ repeat 0 12.
Definition sh_ex_pts (k : nat) : list (list Z) := map (fun j => [Z.of_nat k; 10 + Z.of_nat j; 5]) (seq 0 8).
Definition sh_ex_buf : sheet_buf := {| b_open := false; b_sheet := repeat 0 96; b_sw := 1; b_gw := 2; b_mass := 3 |}.
Lemma sh_ex_good k : (k < 8)%nat -> sheet_good 1 2 sh_ex_header (sh_ex_pts k).
Proof.
  intros Hk. constructor; try reflexivity.
  - unfold sheet_layout, sh_ex_header. cbn [repeat app]. repeat (constructor; [unfold word; cbn; lia|]). constructor.
  - split; reflexivity.
  - unfold sh_ex_pts. cbn [map seq]. repeat (constructor; [split; [reflexivity|repeat constructor; cbn; lia]|]). constructor.
Qed.
Example C149_nonvacuous : sheet_good 1 2 sh_ex_header (sh_ex_pts 3) /\
  sheet_read LE 1000 sh_ex_buf (Some (sheet_file BE sh_ex_header (sh_ex_pts 3))) =
    FOk ({| b_open := true; b_sheet := flat_map (fun p => flat_map (put LE 4) p) (sh_ex_pts 3); b_sw := 1; b_gw := 2; b_mass := 3 |}, Some ([[3; 10; 5]], [], [3], [0])).
Proof. split; [apply sh_ex_good; lia|vm_compute; reflexivity]. Qed.
Example C150_nonvacuous : sheet_snapshot 1 2 2 (fun t => let '(x, y, z) := t in [Z.of_nat (x + 2 * y + 4 * z); 10; 5]) (fun _ => sh_ex_header) sh_ex_pts.
Proof.
  intros idx Hi. split; [apply sh_ex_good; cbn in Hi; lia|]. intros x y z Hx Hy Hz. assert (x = 0 /\ y = 0 /\ z = 0)%nat as (-> & -> & ->) by lia.
  cbn in Hi. do 8 (destruct idx as [|idx]; [reflexivity|]). lia.
Qed.
Example C151_nonvacuous : read_in_turn LE 1000 sh_ex_buf [Some (sheet_file LE sh_ex_header (sh_ex_pts 3)); None; Some (sheet_file BE sh_ex_header (sh_ex_pts 4))] =
  FOk [[[3; 10; 5]]; [[3; 10; 5]]; [[4; 10; 5]]].
Proof. vm_compute. reflexivity. Qed.
