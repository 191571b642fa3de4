(** * Proofs about gotetra files. *)
From Coq Require Import ZArith List Lia Bool.
From Verif Require Import SheetSpec BytesFacts OrderProofs LoopFacts GadgetProofs GadgetProofs2.
Import List ListNotations.
Local Open Scope nat_scope.

Lemma Forall2_len {A B} (R : A -> B -> Prop) l l' : Forall2 R l l' -> length l = length l'.
Proof. induction 1; cbn; lia. Qed.

Lemma sign_small v : (0 <= v < 2 ^ 63)%Z -> sign 8 v = v.
Proof. intros H. unfold sign. change (256 ^ Z.of_nat 8)%Z with (2 * 2 ^ 63)%Z. destruct (Z.ltb_spec (2 * v) (2 * 2 ^ 63)); lia. Qed.

Lemma load_good e h pts rest : Forall2 word sheet_layout h ->
  load_sheet_header (Some (sheet_file e h pts ++ rest)) = FOk (h, e, flat_map (fun p => flat_map (put e 4) p) pts ++ rest).
Proof.
  intros Hw. unfold load_sheet_header, sheet_file. rewrite <- !app_assoc.
  match goal with |- context [read_i32 LE (put_int LE 4 ?v ++ ?s)] => destruct (read_i32_app LE v s) as (w & -> & ->) end.
  rewrite get_put_int by (destruct e; unfold int_range; cbn; lia).
  assert (endianness (flag_of e) = Some e) as -> by (destruct e; reflexivity).
  match goal with |- context [read_i32 e (put_int e 4 ?v ++ ?s)] => destruct (read_i32_app e v s) as (w & -> & ->) end.
  rewrite get_put_int by (unfold int_range; cbn; lia). cbn [Z.eqb Pos.eqb negb].
  rewrite read_full_app by (rewrite put_words_length by (symmetry; apply (Forall2_len _ _ _ Hw)); reflexivity).
  now rewrite decode_put_words.
Qed.

(** Loops that append. *)
Lemma loop_append {A} (n : nat) (body : nat -> list A -> option (list A)) (f : nat -> list A) acc :
  (forall i acc, i < n -> body i acc = Some (acc ++ f i)) -> loop n body acc = Some (acc ++ flat_map f (seq 0 n)).
Proof.
  intros H.
  assert (G : forall m, m <= n -> loop m body acc = Some (acc ++ flat_map f (seq 0 m))).
  { induction m as [|m IH]; intros Hm.
    - cbn. now rewrite app_nil_r.
    - cbn [loop]. rewrite IH by lia. rewrite H by lia. rewrite seq_S, flat_map_app. cbn [flat_map plus]. now rewrite app_nil_r, app_assoc. }
  apply G. lia.
Qed.

Lemma flat_map_singleton {A B} (f : A -> B) l : flat_map (fun a => [f a]) l = map f l.
Proof. induction l; cbn; congruence. Qed.

Lemma segment_points_spec sw gw pts : length pts = gw * gw * gw -> sw <= gw -> segment_points pts sw gw = Some (segment sw gw pts).
Proof.
  intros Hl Hs. unfold segment_points, segment.
  match goal with |- loop sw ?b [] = Some ?r => change (loop sw b [] = Some ([] ++ r)) end. 
  apply loop_append. intros z acc Hz. apply loop_append. intros y acc' Hy.
  rewrite <- flat_map_singleton. apply loop_append. intros x acc'' Hx.
  assert (Hi : x + y * gw + z * gw * gw = x + gw * (y + gw * z)) by lia.
  assert (Hb : x + gw * (y + gw * z) < length pts).
  { rewrite Hl. assert (x + gw * y < gw * gw) by nia. assert (gw * gw * (z + 1) <= gw * gw * gw) by (apply Nat.mul_le_mono_l; lia). nia. }
  rewrite Hi, (rd_nth _ _ []) by exact Hb. reflexivity.
Qed.

Section Read.
Variables (sys e : order) (cap : nat) (n : nat) (pts : list (list Z)) (mem : list Z).
Hypothesis Hn : length pts = n.
Hypothesis Hmem : length mem = 12 * n.
Hypothesis Hcap : 12 * n <= cap.
Hypothesis Hp : Forall (fun p => length p = 3 /\ Forall (word 4) p) pts.

Lemma sread_vecs s : exists mem', read_vec_as_byte sys e cap n mem (flat_map (fun p => flat_map (put e 4) p) pts ++ s) = Some (false, mem', s)
    /\ length mem' = 12 * n /\ mem_vecs sys n mem' = pts.
Proof.
  set (ws := flat_map (fun p => p) pts).
  assert (length ws = 3 * n) as Hl.
  { unfold ws. rewrite <- Hn. apply flat_map_length_in. intros p H. apply (proj1 (Forall_forall _ _) Hp p H). }
  assert (Forall (word 4) ws) as Hw.
  { unfold ws. apply Forall_forall. intros v Hv. apply in_flat_map in Hv as (p & Hin & Hv).
    apply (proj1 (Forall_forall _ _) (proj2 (proj1 (Forall_forall _ _) Hp p Hin))). exact Hv. }
  exists (flat_map (put sys 4) ws). split; [|split].
  - rewrite <- flat_map_flat_map. apply read_vec_spec; [exact Hl|exact Hmem|rewrite Hmem; exact Hcap].
  - rewrite (flat_map_length _ 4) by (intros; apply put_length). lia.
  - unfold mem_vecs. rewrite <- Hl, mem_words_put by exact Hw. unfold ws. rewrite <- Hn.
    rewrite (chunks_flat_map_in (fun p : list Z => p) 3 pts) by (intros p H; apply (proj1 (Forall_forall _ _) Hp p H)). apply map_id.
Qed.
End Read.

Lemma sheet_read_good sys cap b e h pts rest : sheet_good (b_sw b) (b_gw b) h pts -> b_sw b <= b_gw b -> b_open b = false ->
  length (b_sheet b) = 12 * (b_gw b * b_gw b * b_gw b) -> 12 * (b_gw b * b_gw b * b_gw b) <= cap ->
  exists b', sheet_read sys cap b (Some (sheet_file e h pts ++ rest)) =
      FOk (b', Some (segment (b_sw b) (b_gw b) pts, [], repeat (b_mass b) (b_sw b * b_sw b * b_sw b), repeat 0%Z (b_sw b * b_sw b * b_sw b)))
    /\ b_open b' = true /\ b_sw b' = b_sw b /\ b_gw b' = b_gw b /\ b_mass b' = b_mass b /\
    length (b_sheet b') = 12 * (b_gw b * b_gw b * b_gw b) /\ mem_vecs sys (b_gw b * b_gw b * b_gw b) (b_sheet b') = pts.
Proof.
  intros [Hw Hsw Hgw Hc Hs Hsm Hl Hp] Hle Ho Hm Hcap. unfold sheet_read. rewrite Ho. cbv zeta. unfold read_sheet_positions. rewrite load_good by exact Hw.
  unfold sh_gridCount, sh_int. rewrite Hc, sign_small by lia. rewrite Z.eqb_refl. cbn [negb].
  destruct (sread_vecs sys e cap _ pts (b_sheet b) Hl Hm Hcap Hp rest) as (mem' & -> & Hl' & Hv).
  rewrite Hv, segment_points_spec by assumption. eexists. split; [reflexivity|]. cbn. repeat split; assumption.
Qed.
