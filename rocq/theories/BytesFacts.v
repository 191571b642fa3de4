(** * Facts about byte streams. *)
From Verif Require Export BytesModel LoopFacts ListFacts GoBaseFacts.
Local Open Scope Z_scope.

Lemma put_le_length n v : length (put_le n v) = n.
Proof. revert v; induction n; intros; cbn [put_le length]; [reflexivity|now rewrite IHn]. Qed.

Lemma put_length o n v : length (put o n v) = n.
Proof. destruct o; cbn [put]; [|rewrite rev_length]; apply put_le_length. Qed.

Lemma put_int_length o n v : length (put_int o n v) = n.
Proof. apply put_length. Qed.

Lemma pow256_S n : 256 ^ Z.of_nat (S n) = 256 * 256 ^ Z.of_nat n.
Proof. rewrite Nat2Z.inj_succ, Z.pow_succ_r by lia. reflexivity. Qed.

Lemma pow256_pos n : 0 < 256 ^ Z.of_nat n.
Proof. apply Z.pow_pos_nonneg; lia. Qed.

Lemma get_put_le n v : get_le (put_le n v) = v mod 256 ^ Z.of_nat n.
Proof.
  revert v; induction n; intros v; cbn [put_le get_le].
  - rewrite Z.mod_1_r. reflexivity.
  - rewrite IHn, pow256_S.
    rewrite Z.rem_mul_r by (pose proof (pow256_pos n); lia). lia.
Qed.

Lemma get_put o n v : get o (put o n v) = v mod 256 ^ Z.of_nat n.
Proof. destruct o; cbn [put get]; rewrite ?rev_involutive; apply get_put_le. Qed.

Lemma get_put_small o n v : 0 <= v < 256 ^ Z.of_nat n -> get o (put o n v) = v.
Proof. intros; rewrite get_put; now apply Z.mod_small. Qed.

Lemma get_rev a b bs : a <> b -> get a (rev bs) = get b bs.
Proof. destruct a, b; try congruence; intros _; cbn [get]; now rewrite ?rev_involutive. Qed.

Definition int_range (n : nat) (v : Z) : Prop :=
  - 256 ^ Z.of_nat n <= 2 * v /\ 2 * v < 256 ^ Z.of_nat n.

Lemma sign_unsign n v : int_range n v -> sign n (unsign n v) = v.
Proof.
  intros [H1 H2]. unfold sign, unsign. pose proof (pow256_pos n) as Hp.
  destruct (Z.le_gt_cases 0 v).
  - rewrite Z.mod_small by lia. rewrite (proj2 (Z.ltb_lt _ _)) by lia. reflexivity.
  - assert (v mod 256 ^ Z.of_nat n = v + 256 ^ Z.of_nat n) as ->.
    { symmetry. apply Z.mod_unique with (-1); lia. }
    rewrite (proj2 (Z.ltb_ge _ _)) by lia. lia.
Qed.

Lemma get_put_int o n v : int_range n v -> get_int o (put_int o n v) = v.
Proof.
  intros H. unfold get_int, put_int. rewrite put_length, get_put.
  unfold unsign. rewrite Z.mod_mod by (pose proof (pow256_pos n); lia).
  now apply sign_unsign.
Qed.

Lemma flat_map_length {A} (f : A -> list Z) n xs :
  (forall x, length (f x) = n) -> length (flat_map f xs) = (n * length xs)%nat.
Proof.
  intros H; induction xs; cbn [flat_map length]; [lia|]. rewrite app_length, IHxs, H. lia.
Qed.

Lemma chunks_flat_map {A} (f : A -> list Z) n xs :
  (forall x, length (f x) = n) -> chunks n (length xs) (flat_map f xs) = map f xs.
Proof.
  intros H; induction xs; cbn [flat_map length chunks map]; [reflexivity|].
  rewrite firstn_app, skipn_app, H, Nat.sub_diag. cbn [firstn skipn].
  rewrite firstn_all2, skipn_all2 by (rewrite H; lia). rewrite app_nil_r. cbn [app]. now rewrite IHxs.
Qed.

Lemma chunks_length n k bs : length (chunks n k bs) = k.
Proof. revert bs; induction k; intros; cbn [chunks length]; [reflexivity|now rewrite IHk]. Qed.

Lemma read_full_app n a s : length a = n -> read_full n (a ++ s) = (Some a, s).
Proof.
  intros <-. unfold read_full. rewrite app_length, (proj2 (Nat.leb_le _ _)) by lia.
  rewrite firstn_app, skipn_app, Nat.sub_diag, firstn_all, skipn_all. cbn [firstn skipn].
  now rewrite app_nil_r.
Qed.

Lemma read_full_short n s : (length s < n)%nat -> read_full n s = (None, []).
Proof. intros. unfold read_full. rewrite (proj2 (Nat.leb_gt _ _)) by lia. reflexivity. Qed.

Lemma write_ints_length o n xs : length (write_ints o n xs) = (n * length xs)%nat.
Proof. apply flat_map_length. intros; apply put_int_length. Qed.

Lemma get_write_ints o n xs : Forall (int_range n) xs ->
  map (get_int o) (chunks n (length xs) (write_ints o n xs)) = xs.
Proof.
  intros H. unfold write_ints. rewrite chunks_flat_map by (intros; apply put_int_length).
  rewrite map_map. rewrite <- (map_id xs) at 2. apply map_ext_in.
  intros x Hx. apply get_put_int. eapply Forall_forall; eauto.
Qed.

Lemma read_write_ints o n xs k old s : Forall (int_range n) xs -> k = length xs ->
  read_ints o n k old (write_ints o n xs ++ s) = (xs, s).
Proof.
  intros H ->. unfold read_ints. rewrite read_full_app by apply write_ints_length.
  now rewrite get_write_ints.
Qed.
