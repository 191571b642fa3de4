(** * Proofs about the binary halo tables and the cache. *)
From Coq Require Import Lia ZArith List Permutation Sorting.Sorted.
From Verif Require Import GoBase GoBaseFacts LoopBase LoopFacts ListFacts BytesModel BytesFacts RockstarModel RockstarSpec RockstarProofs.
Import List ListNotations.
Local Open Scope nat_scope.

(** ** Selecting rows *)
Definition sel {A} (I : list nat) (c : list A) : list A :=
  flat_map (fun i => match nth_error c i with Some v => [v] | None => [] end) I.

Lemma sel_mapo {A} (I : list nat) (c : list A) : (forall i, In i I -> i < length c) -> mapo (rd c) I = Some (sel I c).
Proof.
  induction I as [|i I IH]; intros H; [reflexivity|]. cbn [mapo sel flat_map]. unfold rd at 1.
  destruct (nth_error c i) eqn:E; [|apply nth_error_None in E; specialize (H i (or_introl eq_refl)); lia].
  rewrite IH by (intros; apply H; now right). reflexivity.
Qed.

Lemma sel_length {A} (I : list nat) (c : list A) : (forall i, In i I -> i < length c) -> length (sel I c) = length I.
Proof.
  induction I as [|i I IH]; intros H; [reflexivity|]. cbn [sel flat_map length].
  destruct (nth_error c i) eqn:E; [|apply nth_error_None in E; specialize (H i (or_introl eq_refl)); lia].
  cbn [app length]. fold (sel I c). rewrite IH; [reflexivity|]. intros; apply H; now right.
Qed.

Lemma sel_nth {A} (I : list nat) (c : list A) k : (forall i, In i I -> i < length c) ->
  nth_error (sel I c) k = match nth_error I k with Some i => nth_error c i | None => None end.
Proof.
  revert k. induction I as [|i I IH]; intros k H; [destruct k; reflexivity|]. cbn [sel flat_map].
  destruct (nth_error c i) eqn:E; [|apply nth_error_None in E; specialize (H i (or_introl eq_refl)); lia].
  cbn [app]. destruct k as [|k]; [cbn; now rewrite E|]. cbn [nth_error]. apply IH. intros; apply H; now right.
Qed.

Lemma sel_all {A} (c : list A) : sel (seq 0 (length c)) c = c.
Proof.
  apply nth_error_ext. intros k. rewrite sel_nth by (intros i Hi; apply in_seq in Hi; lia).
  destruct (Nat.lt_ge_cases k (length c)).
  - rewrite (nth_error_nth' _ 0) by (now rewrite seq_length). now rewrite seq_nth.
  - rewrite (proj2 (nth_error_None _ _)) by (now rewrite seq_length). symmetry. now apply nth_error_None.
Qed.

Lemma sel_map {A B} (f : A -> B) I c : sel I (map f c) = map f (sel I c).
Proof.
  induction I as [|i I IH]; [reflexivity|]. cbn [sel flat_map]. rewrite map_app. fold (sel I (map f c)) (sel I c). rewrite IH.
  rewrite nth_error_map. destruct (nth_error c i); reflexivity.
Qed.

Section Bin.
Context {V : Type} (enc : V -> list Z) (dec : list Z -> V).
Hypothesis enc_length : forall v, length (enc v) = 8.
Hypothesis dec_enc : forall v, dec (enc v) = v.
Variable vc : VarColumns.

Lemma col_bytes_length (c : list V) : length (flat_map enc c) = 8 * length c.
Proof. now apply flat_map_length. Qed.

Lemma cols_bytes_length n (cols : list (list V)) : Forall (fun c => length c = n) cols ->
  length (flat_map (flat_map enc) cols) = 8 * n * length cols.
Proof.
  intros F. induction F as [|c cols Hc F IH]; [cbn; lia|]. cbn [flat_map length]. rewrite app_length, IH, col_bytes_length, Hc. lia.
Qed.

Lemma table_bytes_length n cols : Forall (fun c => length c = n) cols ->
  length (table_bytes V enc n cols) = 8 + 8 * n * length cols.
Proof. intros F. unfold table_bytes. rewrite app_length, put_int_length, (cols_bytes_length n) by exact F. reflexivity. Qed.

Lemma skip_cols n cols i c : Forall (fun c => length c = n) cols -> nth_error cols i = Some c ->
  exists rest, skipn (8 * n * i) (flat_map (flat_map enc) cols) = flat_map enc c ++ rest.
Proof.
  intros F. revert i. induction F as [|c0 cols Hc F IH]; intros i Hi; [destruct i; discriminate|].
  destruct i as [|i].
  - injection Hi as ->. rewrite Nat.mul_0_r. cbn [skipn flat_map]. eauto.
  - cbn [flat_map]. replace (8 * n * S i) with (length (flat_map enc c0) + 8 * n * i) by (rewrite col_bytes_length, Hc; lia).
    rewrite skipn_app. rewrite skipn_all2 by lia. cbn [app].
    replace (length (flat_map enc c0) + 8 * n * i - length (flat_map enc c0)) with (8 * n * i) by lia. now apply IH.
Qed.

Lemma mapo_seq {A} (f : nat -> option A) (l : list A) : (forall i a, nth_error l i = Some a -> f i = Some a) ->
  mapo f (seq 0 (length l)) = Some l.
Proof.
  intros H. apply mapo_spec.
  assert (G : forall s (l' : list A), (forall i a, nth_error l' i = Some a -> f (s + i) = Some a) ->
     Forall2 (fun a b => f a = Some b) (seq s (length l')) l').
  { intros s l'. revert s. induction l' as [|a l' IH]; intros s Hl; [constructor|]. cbn [length seq]. constructor.
    - specialize (Hl 0 a eq_refl). now rewrite Nat.add_0_r in Hl.
    - apply IH. intros i b Hb. rewrite Nat.add_succ_comm. now apply (Hl (S i)). }
  apply G. exact H.
Qed.

Lemma small_int n : (Z.of_nat n < 2 ^ 63)%Z -> int_range 8 (Z.of_nat n).
Proof. intros H. unfold int_range. change (256 ^ Z.of_nat 8)%Z with (2 ^ 64)%Z. lia. Qed.

Lemma read_table_bytes n cols : (Z.of_nat n < 2 ^ 63)%Z -> length cols = v_nbinary vc -> Forall (fun c => length c = n) cols ->
  read_binary V dec vc (table_bytes V enc n cols) = Ok cols.
Proof.
  intros Hn HL F. unfold read_binary. rewrite (table_bytes_length n) by exact F.
  destruct (Nat.ltb_spec (8 + 8 * n * length cols) 8); [lia|].
  assert (E8 : firstn 8 (table_bytes V enc n cols) = put_int LE 8 (Z.of_nat n)).
  { unfold table_bytes. rewrite firstn_app, put_int_length, Nat.sub_diag, firstn_O, app_nil_r.
    apply firstn_all2. rewrite put_int_length. lia. }
  rewrite E8, get_put_int by now apply small_int. destruct (Z.ltb_spec (Z.of_nat n) 0); [lia|]. rewrite Nat2Z.id.
  rewrite <- HL. rewrite mapo_seq with (l := cols); [reflexivity|].
  intros i c Hi. destruct (skip_cols n cols i c F Hi) as (rest & Er).
  assert (Es : skipn (8 + 8 * n * i) (table_bytes V enc n cols) = flat_map enc c ++ rest).
  { rewrite <- Er. unfold table_bytes. rewrite skipn_app, put_int_length.
    rewrite skipn_all2 by (rewrite put_int_length; lia). cbn [app]. f_equal. lia. }
  assert (Hc : length c = n) by (apply (proj1 (Forall_forall _ _) F), (nth_error_In _ _ Hi)).
  rewrite Es, read_full_app by (rewrite col_bytes_length; lia). rewrite <- Hc, chunks_flat_map by exact enc_length.
  rewrite map_map. f_equal. rewrite <- (map_id c) at 2. apply map_ext. exact dec_enc.
Qed.

(** A strict prefix of a table is reported. *)
Lemma read_torn n cols k : (Z.of_nat n < 2 ^ 63)%Z -> length cols = v_nbinary vc -> 0 < length cols -> Forall (fun c => length c = n) cols ->
  k < length (table_bytes V enc n cols) -> read_binary V dec vc (firstn k (table_bytes V enc n cols)) = Err.
Proof.
  intros Hn HL Hpos F Hk. unfold read_binary. rewrite (table_bytes_length n) in Hk by exact F.
  assert (Lk : length (firstn k (table_bytes V enc n cols)) = k).
  { rewrite firstn_length, (table_bytes_length n) by exact F. lia. }
  rewrite Lk. destruct (Nat.ltb_spec k 8); [reflexivity|].
  assert (E8 : firstn 8 (firstn k (table_bytes V enc n cols)) = put_int LE 8 (Z.of_nat n)).
  { rewrite firstn_firstn. rewrite Nat.min_l by lia. unfold table_bytes. rewrite firstn_app, put_int_length, Nat.sub_diag, firstn_O, app_nil_r.
    apply firstn_all2. rewrite put_int_length. lia. }
  rewrite E8, get_put_int by now apply small_int. destruct (Z.ltb_spec (Z.of_nat n) 0); [lia|]. rewrite Nat2Z.id.
  rewrite (mapo_none _ _ (length cols - 1)); [reflexivity| |].
  - apply in_seq. lia.
  - rewrite read_full_short; [reflexivity|]. rewrite skipn_length, Lk. nia.
Qed.
End Bin.
