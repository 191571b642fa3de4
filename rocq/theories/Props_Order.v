(** * C35: byte order conversion of particle blocks. *)
From Verif Require Import OrderModel OrderProofs.
Local Open Scope Z_scope.

(** The k words of n bytes held by the memory [mem] of a machine of byte order [sys]. *)
Definition values_in (sys : order) (n k : nat) (mem : list Z) : list Z := map (get sys) (chunks n k mem).
Definition ints_in (sys : order) (n k : nat) (mem : list Z) : list Z := map (get_int sys) (chunks n k mem).

(** The file holds the bit patterns xs, n bytes each, in byte order e. *)
Definition file_words (e : order) (n : nat) (xs : list Z) : list Z := flat_map (put e n) xs.

Definition word (n : nat) (v : Z) : Prop := 0 <= v < 256 ^ Z.of_nat n.

Lemma values_put sys n xs : Forall (word n) xs -> values_in sys n (length xs) (flat_map (put sys n) xs) = xs.
Proof.
  intros H. unfold values_in. rewrite chunks_flat_map by (intros; apply put_length). rewrite map_map.
  rewrite <- (map_id xs) at 2. apply map_ext_in. intros v Hv. apply get_put_small.
  exact (proj1 (Forall_forall _ _) H v Hv).
Qed.

Lemma ints_put sys n xs : Forall (int_range n) xs ->
  ints_in sys n (length xs) (flat_map (put sys n) (map (unsign n) xs)) = xs.
Proof.
  intros H. unfold ints_in. rewrite <- (map_length (unsign n) xs) at 1.
  rewrite chunks_flat_map by (intros; apply put_length). rewrite !map_map.
  rewrite <- (map_id xs) at 2. apply map_ext_in. intros v Hv. apply get_put_int.
  exact (proj1 (Forall_forall _ _) H v Hv).
Qed.

(** On every machine, from files of either order, whatever was in the buffer: the written float32 bit
    patterns come back ([cap] bounds what one Read call delivers). *)
Theorem C35_float32 : forall sys e cap xs buf rest, Forall (word 4) xs ->
  length buf = (4 * length xs)%nat -> (length buf <= cap)%nat ->
  exists mem, read_float32_as_byte sys e cap (length xs) buf (file_words e 4 xs ++ rest) = Some (false, mem, rest)
    /\ values_in sys 4 (length xs) mem = xs.
Proof. intros. eexists. split; [now apply read_float32_spec|now apply values_put]. Qed.
Print Assumptions C35_float32.

(** The same for three-vectors: n vectors are 3n float32s. *)
Theorem C35_vectors : forall sys e cap n xs buf rest, Forall (word 4) xs -> length xs = (3 * n)%nat ->
  length buf = (12 * n)%nat -> (length buf <= cap)%nat ->
  exists mem, read_vec_as_byte sys e cap n buf (file_words e 4 xs ++ rest) = Some (false, mem, rest)
    /\ values_in sys 4 (3 * n) mem = xs.
Proof. intros ? ? ? n xs ? ? Hf Hl ? ?. eexists. split; [now apply read_vec_spec|]. rewrite <- Hl. now apply values_put. Qed.
Print Assumptions C35_vectors.

(** Signed integers, 4 and 8 bytes. *)
Theorem C35_int32 : forall sys e cap xs buf rest, Forall (fun v => - 2 ^ 31 <= v < 2 ^ 31) xs ->
  length buf = (4 * length xs)%nat -> (length buf <= cap)%nat ->
  exists mem, read_int32_as_byte sys e cap (length xs) buf (flat_map (put_int e 4) xs ++ rest) = Some (false, mem, rest)
    /\ ints_in sys 4 (length xs) mem = xs.
Proof.
  intros sys e cap xs buf rest H Hl Hc. eexists. split.
  - replace (flat_map (put_int e 4) xs) with (flat_map (put e 4) (map (unsign 4) xs)).
    + rewrite <- (map_length (unsign 4) xs). apply read_int32_spec; rewrite ?map_length; assumption.
    + rewrite !flat_map_concat_map, map_map. reflexivity.
  - apply ints_put. eapply Forall_impl; [|exact H]. intros v Hv. cbv beta in Hv. unfold int_range.
    change (256 ^ Z.of_nat 4) with 4294967296. change (2 ^ 31) with 2147483648 in Hv. lia.
Qed.
Print Assumptions C35_int32.

Theorem C35_int64 : forall sys e cap xs buf rest, Forall (fun v => - 2 ^ 63 <= v < 2 ^ 63) xs ->
  length buf = (8 * length xs)%nat -> (length buf <= cap)%nat ->
  exists mem, read_int64_as_byte sys e cap (length xs) buf (flat_map (put_int e 8) xs ++ rest) = Some (false, mem, rest)
    /\ ints_in sys 8 (length xs) mem = xs.
Proof.
  intros sys e cap xs buf rest H Hl Hc. eexists. split.
  - replace (flat_map (put_int e 8) xs) with (flat_map (put e 8) (map (unsign 8) xs)).
    + rewrite <- (map_length (unsign 8) xs). apply read_int64_spec; rewrite ?map_length; assumption.
    + rewrite !flat_map_concat_map, map_map. reflexivity.
  - apply ints_put. eapply Forall_impl; [|exact H]. intros v Hv. cbv beta in Hv. unfold int_range.
    change (256 ^ Z.of_nat 8) with 18446744073709551616. change (2 ^ 63) with 9223372036854775808 in Hv. lia.
Qed.
Print Assumptions C35_int64.

(** Bolshoi particles: six float32s and one 8-byte id each; the memory read is the memory of the same
    particles in the machine's own order. *)
Definition particle_bytes (o : order) (p : list Z * Z) : list Z := flat_map (put o 4) (fst p) ++ put o 8 (snd p).

Theorem C35_bolshoi : forall sys e cap (ps : list (list Z * Z)) buf rest,
  Forall (fun p => length (fst p) = 6%nat) ps ->
  length buf = (32 * length ps)%nat -> (length buf <= cap)%nat ->
  read_bolshoi_as_byte sys e cap (length ps) buf (flat_map (particle_bytes e) ps ++ rest)
  = Some (false, flat_map (particle_bytes sys) ps, rest).
Proof. exact read_bolshoi_spec. Qed.
Print Assumptions C35_bolshoi.

(** The same file read as the machine order and as the other order differs by reversing each word:
    reading with the wrong order gives the byte-swapped values. *)
Theorem C35_wrong_order : forall sys e cap xs buf rest, Forall (word 4) xs -> e <> sys ->
  length buf = (4 * length xs)%nat -> (length buf <= cap)%nat ->
  exists mem, read_float32_as_byte sys sys cap (length xs) buf (file_words e 4 xs ++ rest) = Some (false, mem, rest)
    /\ values_in sys 4 (length xs) mem = map (fun v => get sys (rev (put sys 4 v))) xs.
Proof.
  intros sys e cap xs buf rest Hx He Hl Hc.
  exists (flat_map (put e 4) xs). split.
  - unfold read_float32_as_byte, read_block, file_words. rewrite rd_read_full;
      [|rewrite (flat_map_length _ 4) by (intros; apply put_length); lia|assumption].
    destruct sys; reflexivity.
  - unfold values_in. rewrite chunks_flat_map by (intros; apply put_length). rewrite map_map.
    apply map_ext. intros v. rewrite (put_other e sys) by exact He. reflexivity.
Qed.
Print Assumptions C35_wrong_order.

(** Missing: a block of which one Read call delivers only a part (a truncated file, or a block larger
    than the 2^30 bytes os.File delivers at once) gives no error, for any reader and any machine... *)
Theorem C98_short_read_refuted : forall sys e cap xs buf,
  (0 < cap)%nat -> length buf = (8 * length xs)%nat -> xs <> [] -> (cap < length buf)%nat ->
  exists mem rest, read_int64_as_byte sys e cap (length xs) buf (flat_map (put_int e 8) xs) = Some (false, mem, rest)
    /\ rest <> [].
Proof.
  intros sys e cap xs buf Hc Hl Hx Hs.
  set (f := flat_map (put_int e 8) xs).
  assert (length f = length buf) as Hf.
  { unfold f. rewrite (flat_map_length _ 8) by (intros; apply put_int_length). lia. }
  assert (f <> []) as Hne by (intros E; rewrite E in Hf; cbn [length] in Hf; lia).
  unfold read_int64_as_byte, read_block, rd_read. rewrite Hf, Nat.min_id.
  replace (Nat.min cap (length buf)) with cap by lia.
  assert (match buf, f with _ :: _, [] => true | _, _ => false end = false) as ->.
  { destruct buf; [reflexivity|]. destruct f; [congruence|reflexivity]. }
  assert (skipn cap f <> []) as Hr.
  { intros E. assert (length (skipn cap f) = 0%nat) as E0 by now rewrite E. rewrite skipn_length in E0. lia. }
  destruct (is_sys_order sys e); [eauto|].
  set (b := firstn cap f ++ skipn cap buf).
  assert (length b = (8 * length xs)%nat) as Hb.
  { unfold b. rewrite app_length, firstn_length, skipn_length. lia. }
  assert (forall k (l : list Z), length l = (8 * k)%nat -> l = concat (chunks 8 k l) /\ Forall (fun x : list Z => length x = 8%nat) (chunks 8 k l)) as Hch.
  { clear. induction k as [|k IH]; intros l Hl; cbn [chunks concat].
    - destruct l; [split; [reflexivity|constructor]|discriminate].
    - assert (length (skipn 8 l) = (8 * k)%nat) as Hs by (rewrite skipn_length; lia).
      destruct (IH _ Hs) as [E F]. split; [rewrite <- E; symmetry; apply firstn_skipn|].
      constructor; [rewrite firstn_length; lia|assumption]. }
  destruct (Hch (length xs) b Hb) as [Eb Fb].
  exists (concat (map (@rev Z) (chunks 8 (length xs) b))), (skipn cap f). split; [|exact Hr].
  rewrite Eb at 1. rewrite <- (chunks_length 8 (length xs) b) at 1.
  rewrite (concat_words_nil (chunks 8 (length xs) b)), (swap_words_spec 8) by (assumption || lia).
  now rewrite app_nil_r.
Qed.
Print Assumptions C98_short_read_refuted.

(** ... and leaves stale words: here the second id read is what was in the buffer before. *)
Example C35_short_read_stale :
  read_int64_as_byte LE LE 100 2 (flat_map (put_int LE 8) [77; 88]) (flat_map (put_int LE 8) [1])
  = Some (false, flat_map (put_int LE 8) [1; 88], []).
Proof. reflexivity. Qed.

Example C35_nonvacuous : exists xs buf, Forall (fun v => - 2 ^ 63 <= v < 2 ^ 63) xs /\
  length buf = (8 * length xs)%nat /\ (length buf <= 1000)%nat /\ (2 <= length xs)%nat /\
  read_int64_as_byte LE BE 1000 (length xs) buf (flat_map (put_int BE 8) xs ++ [9])
    = Some (false, flat_map (put_int LE 8) xs, [9]).
Proof.
  exists [5; -6; 70000], (repeat 3 24). split; [repeat constructor; cbn; lia|].
  repeat split; cbn; try lia.
Qed.
