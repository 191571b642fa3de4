(** * Proofs about LGadget-2 files. *)
From Coq Require Import ZArith List Lia Bool.
From Verif Require Import LGadgetSpec BytesFacts OrderProofs GadgetProofs GadgetProofs2.
Import List ListNotations.
Local Open Scope nat_scope.

Lemma lg_layout_sum : fold_right plus 0 lg_layout = 256.
Proof. reflexivity. Qed.

Section Read.
Variables (sys e : order) (cap : nat) (stale : nat -> list Z) (parts : list particle).
Hypothesis Hstale : forall n, length (stale n) = n.
Hypothesis Hgood : Forall (good_particle 8) parts.
Let N := length parts.
Hypothesis Hcap : 12 * N <= cap.

Lemma lread_vecs (g : particle -> list Z) s :
  (forall p, In p parts -> length (g p) = 3 /\ Forall (word 4) (g p)) ->
  exists mem, read_vec_as_byte sys e cap N (stale (12 * N)) (flat_map (fun p => flat_map (put e 4) (g p)) parts ++ s) = Some (false, mem, s)
    /\ mem_vecs sys N mem = map g parts.
Proof.
  intros Hg. set (ws := flat_map g parts).
  assert (length ws = 3 * N) as Hl.
  { unfold ws. apply flat_map_length_in. intros tp H. apply Hg; assumption. }
  assert (Forall (word 4) ws) as Hw.
  { unfold ws. apply Forall_forall. intros v Hv. apply in_flat_map in Hv as (tp & Htp & Hv).
    apply (proj1 (Forall_forall _ _) (proj2 (Hg tp Htp))). exact Hv. }
  exists (flat_map (put sys 4) ws). split.
  - rewrite <- flat_map_flat_map. apply read_vec_spec; [exact Hl|apply Hstale|rewrite Hstale; exact Hcap].
  - unfold mem_vecs. rewrite <- Hl, mem_words_put by exact Hw. unfold ws, N. apply chunks_flat_map_in.
    intros tp H. apply Hg; assumption.
Qed.

Lemma lread_ids s :
  exists mem, read_int64_as_byte sys e cap N (stale (8 * N)) (flat_map (fun p => put_int e 8 (p_id p)) parts ++ s) = Some (false, mem, s)
    /\ mem_ints sys 8 N mem = map p_id parts.
Proof.
  set (vs := map p_id parts).
  assert (length vs = N) as Hl by (unfold vs; now rewrite map_length).
  assert (Forall (fits 8) vs) as Hf.
  { unfold vs. apply Forall_forall. intros v Hv. apply in_map_iff in Hv as (p & <- & Hp).
    apply (gp_id _ _ (proj1 (Forall_forall _ _) Hgood p Hp)). }
  assert (flat_map (fun p => put_int e 8 (p_id p)) parts = flat_map (put e 8) (map (unsign 8) vs)) as ->.
  { unfold vs. rewrite !flat_map_map. apply flat_map_ext. intros a. reflexivity. }
  exists (flat_map (put sys 8) (map (unsign 8) vs)). split.
  - replace N with (length (map (unsign 8) vs)) by (now rewrite map_length).
    apply read_int64_spec; [rewrite Hstale, map_length; lia|rewrite Hstale, map_length; lia].
  - rewrite <- Hl. apply mem_ints_put. exact Hf.
Qed.
End Read.

Lemma Forall2_len {A B} (R : A -> B -> Prop) l l' : Forall2 R l l' -> length l = length l'.
Proof. induction 1; cbn; lia. Qed.

Lemma counted_lg npartNum a b n : counted npartNum a b n -> (a <= 100 * 1000 \/ npartNum = 1)%Z -> lg_count npartNum a b = Some n.
Proof.
  intros [(-> & ->)|(-> & ->)] Hs; unfold lg_count; cbn [Z.eqb Pos.eqb]; [reflexivity|].
  destruct Hs as [Hs|Hs]; [|discriminate].
  destruct (Z.gtb_spec a (100 * 1000)); [lia|]. f_equal. rewrite Z.shiftl_mul_pow2 by lia. lia.
Qed.

(** The header words as the code sees them. *)
Lemma read_lg_header e h parts rest : Forall2 word lg_layout h ->
  read_lgadget2_header e (lgadget_file e h parts ++ rest) = Some (swapped_words e lg_layout h).
Proof.
  intros Hw. unfold read_lgadget2_header, lgadget_file, frecord at 1. rewrite <- !app_assoc.
  match goal with |- context [read_i32 e (put_int e 4 ?v ++ ?s)] => destruct (read_i32_app e v s) as (w & -> & _) end.
  rewrite read_full_app by (rewrite put_words_length by (symmetry; apply (Forall2_len _ _ _ Hw)); reflexivity).
  f_equal. now apply decode_swapped.
Qed.

Lemma read_lgadget2_spec F sys cap stale npartNum mass h parts rest :
  (forall n, length (stale n) = n) -> lg_good npartNum h parts -> 12 * length parts <= cap ->
  read_lgadget2 F sys LE cap stale npartNum mass (lgadget_file LE h parts ++ rest) =
  Some (match map_opt (map_opt (lg_wrapped F h)) (map p_x parts) with
        | Some X => Some (X, map (fun p => map (fun v => f32_mul F v (f32_of_64 F (sqrt_64 F (nth 12 h 0%Z)))) (p_v p)) parts,
                          repeat mass (length parts), map p_id parts)
        | None => None
        end).
Proof.
  intros Hst [Hw Hc Hs Hp] Hcap. unfold read_lgadget2, lgadget_file, frecord. rewrite <- !app_assoc.
  assert (forall v s, read_i32 LE (put_int LE 4 v ++ s) = Some (get_int LE (put_int LE 4 v), s)) as Hi'.
  { intros v s. destruct (read_i32_app LE v s) as (w & E & ->). exact E. }
  rewrite Hi'. rewrite read_full_app by (rewrite put_words_length by (symmetry; apply (Forall2_len _ _ _ Hw)); reflexivity).
  rewrite decode_put_words by exact Hw. rewrite Hi'. rewrite (counted_lg _ _ _ _ Hc Hs), Nat2Z.id. rewrite Hi'.
  match goal with |- context [read_vec_as_byte sys LE cap _ _ (_ ++ ?s)] =>
    destruct (lread_vecs sys LE cap stale parts Hst Hcap p_x s) as (xmem & -> & Hx)
  end.
  { intros p H. pose proof (proj1 (Forall_forall _ _) Hp p H) as G. split; [apply (gp_x3 _ _ G)|apply (gp_x _ _ G)]. }
  rewrite !Hi'.
  match goal with |- context [read_vec_as_byte sys LE cap _ _ (_ ++ ?s)] =>
    destruct (lread_vecs sys LE cap stale parts Hst Hcap p_v s) as (vmem & -> & Hv)
  end.
  { intros p H. pose proof (proj1 (Forall_forall _ _) Hp p H) as G. split; [apply (gp_v3 _ _ G)|apply (gp_v _ _ G)]. }
  rewrite !Hi'.
  match goal with |- context [read_int64_as_byte sys LE cap _ _ (_ ++ ?s)] =>
    destruct (lread_ids sys LE cap stale parts Hst Hp Hcap s) as (imem & -> & Hid)
  end.
  rewrite Hx, Hv, Hid.
  assert (Ecoord : lg_coord F (f32_of_64 F (gh_boxsize h)) = lg_wrapped F h) by reflexivity. rewrite Ecoord.
  destruct (map_opt _ _); [|reflexivity]. rewrite map_map. reflexivity.
Qed.
