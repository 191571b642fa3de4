(** * C22, C42: filter files. *)
From Verif Require Import FilterModel FilterSpec FilterProofs.
Local Open Scope Z_scope.

Lemma good_storable d : good_data d -> storable d.
Proof.
  assert (forall v, fits_int64 v -> int_range 8 v) as Hr.
  { intros v. unfold fits_int64, int_range. change (256 ^ Z.of_nat 8) with 18446744073709551616.
    change (2 ^ 63) with 9223372036854775808. lia. }
  intros [H1 H2 H3 H4 H5 H6]. repeat split; auto.
  - eapply Forall_impl; [|exact H4]; auto.
  - eapply Forall_impl; [|exact H5]; auto.
  - eapply Forall_impl; [|exact H6]. intros p [Ha Hb]. split; [exact Ha|]. eapply Forall_impl; [|exact Hb]; auto.
Qed.

(** What is written is read back exactly: for every machine, every flag and all data. *)
Theorem C22_round_trip : forall (sys : order) (flag : bytes) (o : order) (d : FilterData),
  flag_means sys flag o -> good_data d ->
  exists f : list Z, write_filter sys flag d = Some f /\ read_filter f = Ok d.
Proof.
  intros sys flag o d Hf Hd. pose proof (good_storable d Hd) as Hs. exists (file_of o d). split.
  - apply write_filter_spec; [rewrite (gd_ids d Hd)|rewrite (gd_parts d Hd)|]; auto.
  - now apply round_trip.
Qed.
Print Assumptions C22_round_trip.

(** A file written on one machine is read on any other: the bytes depend on the flag's order only. *)
Theorem C22_portable : forall (sys sys' : order) (flag flag' : bytes) (o : order) (d : FilterData),
  flag_means sys flag o -> flag_means sys' flag' o -> good_data d ->
  write_filter sys flag d = write_filter sys' flag' d.
Proof.
  intros sys sys' flag flag' o d Hf Hf' Hd.
  rewrite !(write_filter_spec _ _ d o); auto; rewrite ?(gd_ids d Hd), ?(gd_parts d Hd); auto.
Qed.
Print Assumptions C22_portable.

(** Writing panics exactly for unknown flags or missing ids / particle lists. *)
Theorem C22_panics : forall (sys : order) (flag : bytes) (d : FilterData),
  write_filter sys flag d = None <->
  (~ exists o, flag_means sys flag o) \/ (length (f_ids d) < length (f_snaps d))%nat
  \/ (length (f_particles d) < length (f_snaps d))%nat.
Proof. exact write_filter_none. Qed.
Print Assumptions C22_panics.

(** The header records hold each halo's id, snapshot and particle count, and the particles of halo i
    are the bytes at [particle_offset d i]. *)
Lemma header_fields sys flag o d f i : flag_means sys flag o -> good_data d ->
  write_filter sys flag d = Some f -> (i < length (f_snaps d))%nat ->
  header_field o f i 2 = 8 + 32 * Z.of_nat (length (f_snaps d)) /\
  bytes_at f (particle_offset d i) (8 * length (nth i (f_particles d) []))
    = flat_map (put_int o 8) (nth i (f_particles d) []).
Proof.
  intros Hf Hd Hw Hi. pose proof (good_storable d Hd) as Hs.
  rewrite (write_filter_spec sys flag d o) in Hw; rewrite ?(gd_ids d Hd), ?(gd_parts d Hd); auto.
  injection Hw as <-. split.
  - exact (file_start o d i Hs Hi).
  - exact (file_data o d i Hs Hi).
Qed.

Theorem C22_layout : forall sys flag o d f i, flag_means sys flag o -> good_data d ->
  write_filter sys flag d = Some f -> (i < length (f_snaps d))%nat ->
  bytes_at f (particle_offset d i) (8 * length (nth i (f_particles d) []))
    = flat_map (put_int o 8) (nth i (f_particles d) []).
Proof. intros. eapply header_fields; eauto. Qed.
Print Assumptions C22_layout.

(** StartByte is right for a halo exactly when no halo before it has any particle; missing from the
    full claim: it should be right for every halo (see [C95_start_byte_refuted]). *)
Theorem C95_start_byte_partial : forall sys flag o d f i, flag_means sys flag o -> good_data d ->
  write_filter sys flag d = Some f -> (i < length (f_snaps d))%nat ->
  (header_field o f i 2 = Z.of_nat (particle_offset d i) <->
   forall j, (j < i)%nat -> nth j (f_particles d) [] = []).
Proof.
  intros sys flag o d f i Hf Hd Hw Hi. destruct (header_fields sys flag o d f i) as [-> _]; auto.
  unfold particle_offset.
  assert (length (concat (firstn i (f_particles d))) = 0%nat <->
          forall j, (j < i)%nat -> nth j (f_particles d) [] = []) as Hc.
  { rewrite (gd_parts d Hd) in * || idtac. assert (i <= length (f_particles d))%nat as Hl by (rewrite (gd_parts d Hd); lia).
    clear -Hl. revert i Hl. induction (f_particles d) as [|p ps IH]; intros i Hl; cbn [length] in Hl.
    - replace i with 0%nat by lia. cbn. split; [intros; lia|reflexivity].
    - destruct i as [|i]; [cbn; split; [intros; lia|reflexivity]|]. cbn [firstn concat]. rewrite app_length.
      split.
      + intros H [|j] Hj; cbn [nth]; [destruct p; [reflexivity|cbn [length] in H; lia]|].
        apply (proj1 (IH i ltac:(lia)) ltac:(lia)). lia.
      + intros H. pose proof (H 0%nat ltac:(lia)) as H0. cbn [nth] in H0. subst p. cbn [length].
        apply (IH i ltac:(lia)). intros j Hj. apply (H (S j)). lia. }
  rewrite <- Hc. lia.
Qed.
Print Assumptions C95_start_byte_partial.

(** The StartByte half of the claim is false: any file with a halo after a non-empty one has a wrong
    StartByte, for instance this one. *)
Theorem C95_start_byte_refuted : exists d f, good_data d /\
  write_filter LE (lit "LittleEndian") d = Some f /\
  read_filter f = Ok d /\ header_field LE f 1 2 <> Z.of_nat (particle_offset d 1).
Proof.
  set (d := {| f_snaps := [100; 100]; f_ids := [7; 8]; f_particles := [[1; 2; 3]; [4]] |}).
  exists d.
  assert (good_data d) as Hd.
  { split; cbn; try lia; repeat constructor; cbn; lia. }
  destruct (C22_round_trip LE (lit "LittleEndian") LE d) as (f & Hw & Hr); [now left|exact Hd|].
  exists f. split; [exact Hd|]. split; [exact Hw|]. split; [exact Hr|].
  intros H. pose proof (proj1 (C95_start_byte_partial LE (lit "LittleEndian") LE d f 1
    ltac:(now left) Hd Hw ltac:(cbn; lia)) H) as H'. clear H; rename H' into H.
  specialize (H 0%nat ltac:(lia)). discriminate.
Qed.
Print Assumptions C95_start_byte_refuted.

Example C22_nonvacuous : exists d f,
  good_data d /\ (2 <= length (f_snaps d))%nat /\ flag_means LE (lit "BigEndian") BE /\
  write_filter LE (lit "BigEndian") d = Some f /\ read_filter f = Ok d.
Proof.
  set (d := {| f_snaps := [100; -1]; f_ids := [7; 8]; f_particles := [[1; 2; -3]; [4]] |}).
  assert (good_data d) as Hd by (split; cbn; try lia; repeat constructor; cbn; lia).
  assert (flag_means LE (lit "BigEndian") BE) as Hf by (right; left; auto).
  destruct (C22_round_trip LE (lit "BigEndian") BE d Hf Hd) as (f & Hw & Hr).
  exists d, f. split; [exact Hd|]. split; [cbn; lia|]. auto.
Qed.

(** ** C42: damage to a filter file. *)
(** A file that does not start with either flag value is an error. *)
Theorem C42_bad_flag_partial : forall f : list Z, (4 <= length f)%nat ->
  get_int LE (firstn 4 f) <> 0 -> get_int LE (firstn 4 f) <> -1 -> read_filter f = Err.
Proof.
  intros f Hl H1 H2. unfold read_filter, read_ints at 1, read_full.
  rewrite (proj2 (Nat.leb_le _ _)) by lia. cbn [map chunks nth Nat.mul].
  rewrite firstn_firstn. cbn [Nat.min Nat.add].
  rewrite (proj2 (Z.eqb_neq _ _)) by exact H1. rewrite (proj2 (Z.eqb_neq _ _)) by exact H2. reflexivity.
Qed.
Print Assumptions C42_bad_flag_partial.

(** But a truncated file is never reported: cut anywhere, at any length, it reads without error, and
    if the cut is in the particle data, with the right snapshots, ids and counts. *)
Theorem C42_truncation_refuted : forall sys flag o d f k, flag_means sys flag o -> good_data d ->
  write_filter sys flag d = Some f ->
  exists d', read_filter (firstn k f) = Ok d' /\
    ((8 <= k)%nat -> length (f_snaps d') = length (f_snaps d)) /\
    ((8 + 32 * length (f_snaps d) <= k)%nat ->
       f_snaps d' = f_snaps d /\ f_ids d' = f_ids d /\
       map (@List.length Z) (f_particles d') = map (@List.length Z) (f_particles d)).
Proof.
  intros sys flag o d f k Hf Hd Hw. pose proof (good_storable d Hd) as Hs.
  rewrite (write_filter_spec sys flag d o) in Hw; rewrite ?(gd_ids d Hd), ?(gd_parts d Hd); auto.
  injection Hw as <-. now apply truncated_ok.
Qed.
Print Assumptions C42_truncation_refuted.

(** Such a read returns wrong particles: ids 1, 2, 3 cut after the first come back as 0, 0, 0. *)
Example C42_nonvacuous : exists d f, good_data d /\
  write_filter LE (lit "LittleEndian") d = Some f /\
  read_filter (firstn 50 f) = Ok {| f_snaps := [100]; f_ids := [7]; f_particles := [[0; 0; 0]] |} /\
  f_particles d = [[1; 2; 3]].
Proof.
  exists {| f_snaps := [100]; f_ids := [7]; f_particles := [[1; 2; 3]] |}. eexists.
  split; [split; cbn; try lia; repeat constructor; cbn; lia|].
  split; [vm_compute; reflexivity|]. split; [vm_compute; reflexivity|reflexivity].
Qed.
