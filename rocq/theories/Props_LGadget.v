(** * C146-C148: LGadget-2 files. *)
From Coq Require Import ZArith Reals Lra List Lia Bool.
From Verif Require Import LGadgetSpec BytesFacts OrderProofs GadgetProofs GadgetProofs2 LGadgetProofs Props_Gadget.
Import List ListNotations.
Local Open Scope Z_scope.

(** ** C146 *)
(** Reading a complete little endian file, on any machine, for any float arithmetic and whatever the buffers held before: all particles in file order, each with
    its own position (wrapped into the box), velocity (times the root of the scale factor, word 12) and id, and with the given mass; or the corruption
    error when a coordinate is out of bounds. *)
Theorem C146_particles_partial : forall F sys cap stale npartNum mass h parts rest,
  (forall n, length (stale n) = n) -> lg_good npartNum h parts -> (12 * length parts <= cap)%nat ->
  read_lgadget2 F sys LE cap stale npartNum mass (lgadget_file LE h parts ++ rest) =
  Some (match map_opt (map_opt (lg_wrapped F h)) (map p_x parts) with
        | Some X => Some (X, map (fun p => map (fun v => f32_mul F v (f32_of_64 F (sqrt_64 F (nth 12 h 0)))) (p_v p)) parts,
                          repeat mass (length parts), map p_id parts)
        | None => None
        end).
Proof. exact read_lgadget2_spec. Qed.
Print Assumptions C146_particles_partial.

(** The header of such a file: its words, and N is the number of particles. *)
Theorem C146_header_partial : forall npartNum h parts rest, lg_good npartNum h parts ->
  read_lgadget2_header LE (lgadget_file LE h parts ++ rest) = Some h /\
  lg_header_n LE npartNum (lgadget_file LE h parts ++ rest) = Some (Z.of_nat (length parts)).
Proof.
  intros npartNum h parts rest [Hw Hc Hs Hp]. unfold lg_header_n. rewrite read_lg_header, swapped_le by exact Hw.
  split; [reflexivity|]. now apply counted_lg.
Qed.
Print Assumptions C146_header_partial.

Lemma swap_small v : 0 <= v < 256 -> get LE (put BE 4 v) = v * 2 ^ 24.
Proof.
  intros Hv. unfold get, put. cbn [put_le]. rewrite !(Z.div_small v 256) by exact Hv. rewrite (Z.mod_small v 256) by exact Hv.
  change (0 mod 256) with 0. change (0 / 256) with 0. change (0 mod 256) with 0. cbn [rev app get_le]. lia.
Qed.

Lemma nth_swapped e sizes h i : Forall2 word sizes h -> (i < length sizes)%nat -> nth i (swapped_words e sizes h) 0 = get LE (put e (nth i sizes 0%nat) (nth i h 0)).
Proof.
  intros H. revert i. induction H as [|n w sizes h Hw _ IH]; intros i Hi; [cbn in Hi; lia|].
  cbn [swapped_words]. destruct i; cbn [nth]; [reflexivity|]. apply IH. cbn [length] in Hi. lia.
Qed.

(** Big endian files: the header is read in the wrong byte order, so the number of particles is wrong for every file with 1 to 255 particles. *)
Theorem C146_big_endian_header_refuted : forall npartNum h parts rest, lg_good npartNum h parts -> (0 < length parts < 256)%nat ->
  lg_header_n BE npartNum (lgadget_file BE h parts ++ rest) = Some (Z.of_nat (length parts) * 2 ^ 24).
Proof.
  intros npartNum h parts rest [Hw Hc Hs Hp] Hn. unfold lg_header_n. rewrite read_lg_header by exact Hw.
  rewrite !nth_swapped by (try exact Hw; cbn; lia). change (nth 0 lg_layout 0%nat) with 4%nat. change (nth 1 lg_layout 0%nat) with 4%nat.
  assert (H0 : word 4 (nth 0 h 0) /\ word 4 (nth 1 h 0)).
  { unfold lg_layout in Hw. cbn [repeat app] in Hw. inversion Hw as [|n w l l' W0 Hw1]; subst. inversion Hw1 as [|n w1 l1 l1' W1 _]; subst.
    cbn [nth]. split; assumption. }
  destruct H0 as ((A0 & A1) & (B0 & B1)).
  destruct Hc as [(-> & Ha)|(-> & Ha)]; unfold lg_count; cbn [Z.eqb Pos.eqb].
  - rewrite Ha, swap_small by lia. reflexivity.
  - assert (nth 0 h 0 = 0) as E0.
    { change (2 ^ 32) with 4294967296 in Ha. lia. }
    rewrite E0 in *. rewrite (swap_small 0) by lia. change (0 * 2 ^ 24 >? 100 * 1000) with false. cbv iota.
    replace (nth 1 h 0) with (Z.of_nat (length parts)) by lia. rewrite swap_small by lia. f_equal. change (Z.shiftl (0 * 2 ^ 24) 32) with 0. lia.
Qed.
Print Assumptions C146_big_endian_header_refuted.

Lemma map_opt_length {A B} (f : A -> option B) l r : map_opt f l = Some r -> length r = length l.
Proof.
  revert r. induction l as [|a l IH]; intros r H; cbn [map_opt] in H; [injection H as <-; reflexivity|].
  destruct (f a); [|discriminate]. destruct (map_opt f l) as [r'|]; [|discriminate]. cbn in H. injection H as <-. cbn. now rewrite (IH r' eq_refl).
Qed.

(** ... and no such file is read correctly: the number of particles returned, if any, is wrong. *)
Theorem C146_big_endian_refuted : forall F sys cap stale npartNum mass h parts rest xs vs ms ids, lg_good npartNum h parts -> (0 < length parts < 256)%nat ->
  read_lgadget2 F sys BE cap stale npartNum mass (lgadget_file BE h parts ++ rest) = Some (Some (xs, vs, ms, ids)) ->
  length xs <> length parts.
Proof.
  intros F sys cap stale npartNum mass h parts rest xs vs ms ids Hg Hn H.
  pose proof (C146_big_endian_header_refuted npartNum h parts rest Hg Hn) as HN.
  destruct Hg as [Hw _ _ _]. unfold lg_header_n, read_lgadget2_header in HN. unfold read_lgadget2 in H.
  destruct (read_i32 BE (lgadget_file BE h parts ++ rest)) as [(m, s)|]; [|discriminate].
  destruct (read_full 256 s) as ([bs|], s'); [|discriminate].
  cbv iota beta in H, HN. rewrite HN in H.
  assert (G : forall a, length (mem_vecs sys (Z.to_nat (Z.of_nat (length parts) * 2 ^ 24)) a) <> length parts).
  { intros a. unfold mem_vecs. rewrite chunks_length. change (2 ^ 24) with 16777216. lia. }
  set (N := Z.to_nat (Z.of_nat (length parts) * 2 ^ 24)) in *. clearbody N. clear -H G.
  repeat match type of H with
  | match read_i32 ?a ?b with _ => _ end = _ => destruct (read_i32 a b) as [(?, ?)|]; [|discriminate]
  | match read_vec_as_byte ?a ?b ?c ?d ?f ?g with _ => _ end = _ => destruct (read_vec_as_byte a b c d f g) as [((?, ?), ?)|]; [|discriminate]
  | match read_int64_as_byte ?a ?b ?c ?d ?f ?g with _ => _ end = _ => destruct (read_int64_as_byte a b c d f g) as [((?, ?), ?)|]; [|discriminate]
  end.
  injection H as H. destruct (map_opt _ (mem_vecs sys N _)) as [X|] eqn:E; [|discriminate]. apply map_opt_length in E.
  injection H as <- _ _ _. rewrite E. apply G.
Qed.
Print Assumptions C146_big_endian_refuted.

(** ** C147 *)
(** Under exact arithmetic a coordinate less than one box width outside the box is returned as its image inside the box. *)
Theorem C147_in_box_partial : forall F val h x, exact F val ->
  let W := val (f32_of_64 F (nth 24 h 0)) in (0 < W)%R -> (- W <= val x < 2 * W)%R ->
  exists y k, lg_wrapped F h x = Some y /\ (val y = val x + IZR k * W)%R /\ (0 <= val y < W)%R.
Proof.
  intros F val h x [Em Ea Es En Ed Ez Elt Ege Ef] W HW Hx. unfold lg_wrapped. cbv zeta. fold W in HW |- *. set (w := f32_of_64 F (nth 24 h 0)) in *.
  assert (Lt : forall a b, (val a < val b)%R -> f32_lt F a b = true) by (intros; now apply Elt).
  assert (NLt : forall a b, (val b <= val a)%R -> f32_lt F a b = false).
  { intros a b H. destruct (f32_lt F a b) eqn:Q; [|reflexivity]. apply Elt in Q. lra. }
  assert (Ge : forall a b, (val b <= val a)%R -> f32_ge F a b = true) by (intros; now apply Ege).
  assert (NGe : forall a b, (val a < val b)%R -> f32_ge F a b = false).
  { intros a b H. destruct (f32_ge F a b) eqn:Q; [|reflexivity]. apply Ege in Q. lra. }
  destruct (Rlt_dec (val x) 0) as [Q|Q]; [|destruct (Rlt_dec (val x) W) as [Q'|Q']].
  - rewrite (Lt x) by (rewrite Ez; lra). rewrite Ef, (NLt (f32_add F x w)), (NLt (f32_dbl F w)) by (rewrite ?Ea, ?En, ?Ed; fold W; lra).
    exists (f32_add F x w), 1%Z. rewrite Ea. fold W. cbn [orb]. split; [reflexivity|split; lra].
  - rewrite (NLt x), (NGe x) by (rewrite ?Ez; fold W; lra). rewrite Ef, (NLt x), (NLt (f32_dbl F w)) by (rewrite ?En, ?Ed; fold W; lra).
    exists x, 0%Z. cbn [orb]. split; [reflexivity|split; lra].
  - rewrite (NLt x), (Ge x) by (rewrite ?Ez; fold W; lra). rewrite Ef, (NLt (f32_sub F x w)), (NLt (f32_dbl F w)) by (rewrite ?Es, ?En, ?Ed; fold W; lra).
    exists (f32_sub F x w), (-1)%Z. rewrite Es. fold W. cbn [orb]. split; [reflexivity|split; lra].
Qed.
Print Assumptions C147_in_box_partial.

(** Coordinates between one and two box widths below the box or above it are accepted as well, and are returned outside the box. *)
Theorem C147_outside_refuted : forall F val h x, exact F val ->
  let W := val (f32_of_64 F (nth 24 h 0)) in (0 < W)%R -> (- 2 * W <= val x < - W \/ 2 * W <= val x <= 3 * W)%R ->
  exists y, lg_wrapped F h x = Some y /\ ~ (0 <= val y < W)%R.
Proof.
  intros F val h x [Em Ea Es En Ed Ez Elt Ege Ef] W HW Hx. unfold lg_wrapped. cbv zeta. fold W in HW |- *. set (w := f32_of_64 F (nth 24 h 0)) in *.
  assert (Lt : forall a b, (val a < val b)%R -> f32_lt F a b = true) by (intros; now apply Elt).
  assert (NLt : forall a b, (val b <= val a)%R -> f32_lt F a b = false).
  { intros a b H. destruct (f32_lt F a b) eqn:Q; [|reflexivity]. apply Elt in Q. lra. }
  assert (Ge : forall a b, (val b <= val a)%R -> f32_ge F a b = true) by (intros; now apply Ege).
  destruct Hx as [Q|Q].
  - rewrite (Lt x) by (rewrite Ez; lra). rewrite Ef, (NLt (f32_add F x w)), (NLt (f32_dbl F w)) by (rewrite ?Ea, ?En, ?Ed; fold W; lra).
    exists (f32_add F x w). rewrite Ea. fold W. cbn [orb]. split; [reflexivity|lra].
  - rewrite (NLt x), (Ge x) by (rewrite ?Ez; fold W; lra). rewrite Ef, (NLt (f32_sub F x w)), (NLt (f32_dbl F w)) by (rewrite ?Es, ?En, ?Ed; fold W; lra).
    exists (f32_sub F x w). rewrite Es. fold W. cbn [orb]. split; [reflexivity|lra].
Qed.
Print Assumptions C147_outside_refuted.

(** What is more than two box widths below or three above is reported. *)
Theorem C147_corrupt : forall F val h x, exact F val ->
  let W := val (f32_of_64 F (nth 24 h 0)) in (0 < W)%R -> (val x < - 2 * W \/ 3 * W < val x)%R -> lg_wrapped F h x = None.
Proof.
  intros F val h x [Em Ea Es En Ed Ez Elt Ege Ef] W HW Hx. unfold lg_wrapped. cbv zeta. fold W in HW |- *. set (w := f32_of_64 F (nth 24 h 0)) in *.
  assert (Lt : forall a b, (val a < val b)%R -> f32_lt F a b = true) by (intros; now apply Elt).
  assert (NLt : forall a b, (val b <= val a)%R -> f32_lt F a b = false).
  { intros a b H. destruct (f32_lt F a b) eqn:Q; [|reflexivity]. apply Elt in Q. lra. }
  assert (Ge : forall a b, (val b <= val a)%R -> f32_ge F a b = true) by (intros; now apply Ege).
  destruct Hx as [Q|Q].
  - rewrite (Lt x) by (rewrite Ez; lra). rewrite Ef, (Lt (f32_add F x w)) by (rewrite ?Ea, ?En; fold W; lra). reflexivity.
  - rewrite (NLt x), (Ge x) by (rewrite ?Ez; fold W; lra). rewrite Ef, (NLt (f32_sub F x w)), (Lt (f32_dbl F w)) by (rewrite ?Es, ?En, ?Ed; fold W; lra). reflexivity.
Qed.
Print Assumptions C147_corrupt.

(** ** C148 *)
(** The total number of particles of the simulation is read correctly (words 16 and 17 hold NPartTotal[0] and [1]). *)
Theorem C148_total_partial : forall npartNum h parts rest total, lg_good npartNum h parts ->
  counted npartNum (nth 16 h 0) (nth 17 h 0) total -> (nth 16 h 0 <= 100 * 1000 \/ npartNum = 1) ->
  lg_total LE npartNum (lgadget_file LE h parts ++ rest) = Some total.
Proof.
  intros npartNum h parts rest total [Hw Hc Hs Hp] Ht Hs'. unfold lg_total. rewrite read_lg_header, swapped_le by exact Hw. now apply counted_lg.
Qed.
Print Assumptions C148_total_partial.

(** With LGadgetNpartNum = 2 for a file whose elements count different species, 1 to 100000 particles of the first species are taken for multiples of 2^32
    without any message; the run only stops with the message of the documentation for more than 100000. *)
Theorem C148_species_refuted : forall h parts rest, Forall2 word lg_layout h ->
  let file := lgadget_file LE h parts ++ rest in
  (0 < nth 16 h 0 <= 100000 -> exists n, lg_total LE 2 file = Some n /\ n <> nth 17 h 0 /\ n <> nth 16 h 0 /\ n <> nth 16 h 0 + nth 17 h 0 /\ n >= 2 ^ 32) /\
  (100000 < nth 16 h 0 -> lg_total LE 2 file = None).
Proof.
  intros h parts rest Hw file. unfold lg_total, file. rewrite read_lg_header, swapped_le by exact Hw. unfold lg_count. cbn [Z.eqb Pos.eqb].
  assert (H17 : 0 <= nth 17 h 0).
  { clear file. unfold lg_layout in Hw. cbn [repeat app] in Hw. do 17 (inversion Hw as [|? ? ? ? _ Hw']; subst; clear Hw; rename Hw' into Hw). 
    inversion Hw as [|? ? ? ? W _]; subst. cbn [nth]. apply W. }
  split; intros Ha.
  - destruct (Z.gtb_spec (nth 16 h 0) (100 * 1000)); [lia|]. eexists. split; [reflexivity|]. rewrite Z.shiftl_mul_pow2 by lia. change (2 ^ 32) with 4294967296. lia.
  - destruct (Z.gtb_spec (nth 16 h 0) (100 * 1000)); [reflexivity|lia].
Qed.
Print Assumptions C148_species_refuted.

(** A file with two particles in a box of width 100 (integers as floats), the second one across the face. *)
Definition lg_ex_parts : list particle :=
  [{| p_x := [1; 2; 3]; p_v := [4; 5; 6]; p_m := 0; p_id := 7 |}; {| p_x := [101; 50; 99]; p_v := [1; 1; 1]; p_m := 0; p_id := -8 |}].
Definition lg_ex_header : list Z := [0; 2; 0; 0; 0; 0] ++ repeat 0 6 ++ [1; 0; 0; 0] ++ [1; 5; 0; 0; 0; 0] ++ [0; 1; 100; 0; 0; 0; 0; 0] ++ repeat 0 88.
Example C146_nonvacuous : lg_good 2 lg_ex_header lg_ex_parts /\
  read_lgadget2 ex_ops LE LE 1000 (repeat 9) 2 77 (lgadget_file LE lg_ex_header lg_ex_parts) =
    Some (Some ([[1; 2; 3]; [1; 50; 99]], [[4; 5; 6]; [1; 1; 1]], [77; 77], [7; -8])) /\
  read_lgadget2 ex_ops BE LE 1000 (repeat 9) 2 77 (lgadget_file LE lg_ex_header lg_ex_parts) =
    Some (Some ([[1; 2; 3]; [1; 50; 99]], [[4; 5; 6]; [1; 1; 1]], [77; 77], [7; -8])).
Proof.
  split; [|split; vm_compute; reflexivity].
  constructor.
  - unfold lg_layout, lg_ex_header. cbn [repeat app]. repeat (constructor; [unfold word; cbn; lia|]). constructor.
  - right. cbn. split; [reflexivity|reflexivity].
  - left. cbn. lia.
  - repeat constructor; cbn; unfold word, fits; cbn; try lia.
Qed.
Example C147_nonvacuous : lg_wrapped ex_ops lg_ex_header (-150) = Some (-50) /\ lg_wrapped ex_ops lg_ex_header (-50) = Some 50 /\
  lg_wrapped ex_ops lg_ex_header (-250) = None.
Proof. repeat split; vm_compute; reflexivity. Qed.
Example C148_nonvacuous : lg_total LE 2 (lgadget_file LE lg_ex_header lg_ex_parts) = Some (5 + 2 ^ 32) /\
  lg_total LE 1 (lgadget_file LE lg_ex_header lg_ex_parts) = Some 1.
Proof. split; vm_compute; reflexivity. Qed.
