(** * C171-C176: ARTIO snapshots (exact arithmetic; go-artio is a contract). *)
From Verif Require Import ArtioSpec GoBaseFacts ArtioProofs ArtioProofs2 ArtioProofs3 Props_Box.
From Coq Require Import Reals Lra List ZArith Lia Bool String.
Import List ListNotations.
Local Open Scope R_scope.

(** Two snapshots: in each species 0 is dark matter, species 1 are stars; blocks 0 and 1. The particles of block 0 are at (u, u, u) and (2u, u, u), block 1 is empty. *)
Definition example_set (u : R) : fileset :=
  {| fs_labels := [list_ascii_of_string "N-BODY"; list_ascii_of_string "STAR"]; fs_species := 2; fs_masses := [3; 1]; fs_sfc := [0; 10; 20]%Z; fs_hubble := Some (1 / 2);
     fs_mass_unit := 2 * g_per_msun; fs_length_unit := 2 * cm_per_mpc; fs_box := 100; fs_auni := Some (1 / 2); fs_omegaM := Some (3 / 10); fs_omegaL := Some (7 / 10); fs_particles := true;
     fs_count := fun lo hi => Some (if (lo =? 0)%Z then [2; 5]%nat else [0; 5]%nat);
     fs_pos := fun i lo hi => match i with 0%nat => Some (if (lo =? 0)%Z then [(u, u, u); (2 * u, u, u)] else []) | _ => None end |}.
Definition example_disk (s : bytes) : option fileset :=
  if beq s (list_ascii_of_string "snap_1") then Some (example_set 1) else if beq s (list_ascii_of_string "snap_2") then Some (example_set 10) else None.
Lemma example_readable u : readable (example_set u).
Proof.
  split; try reflexivity; [cbn; lia|]. intros k lo hi Lo Hi. eexists. split; [reflexivity|]. split; [cbn; destruct (lo =? 0)%Z; reflexivity|].
  intros [|[|[|i]]] NB; cbn in NB; try discriminate NB. cbn. destruct (lo =? 0)%Z; eexists; split; reflexivity.
Qed.
Lemma example_new : new_artio example_disk (list_ascii_of_string "snap_1.p000") <> None.
Proof. cbn. discriminate. Qed.
Lemma name_snap_1 : names_block (list_ascii_of_string "snap_1.p000") (list_ascii_of_string "snap_1") (Z.of_nat 0).
Proof. apply parse_artio_iff. vm_compute. reflexivity. Qed.
Lemma name_snap_2 : names_block (list_ascii_of_string "snap_2.p000") (list_ascii_of_string "snap_2") (Z.of_nat 0).
Proof. apply parse_artio_iff. vm_compute. reflexivity. Qed.
Lemma name_snap_1_1 : names_block (list_ascii_of_string "snap_1.p001") (list_ascii_of_string "snap_1") (Z.of_nat 1).
Proof. apply parse_artio_iff. vm_compute. reflexivity. Qed.

(** ** C171 *)
(** After any use of a buffer for the fileset, reading block k returns its dark matter particles, species by species, with their positions in Mpc/h and their
    species' masses in Msun/h. *)
Theorem C171_block : forall disk f0 set k0 h h100 b sx sm fname k lo hi,
  names_block f0 set k0 -> disk set = Some h -> readable h -> fs_hubble h = Some h100 -> history disk f0 b -> ab_open b = false ->
  names_block fname set (Z.of_nat k) -> nth_error (fs_sfc h) k = Some lo -> nth_error (fs_sfc h) (S k) = Some (hi + 1)%Z ->
  exists b' l, artio_read disk sx sm b fname = Ok (b', Some (map fst l, map snd l)) /\ dark_matter h h100 lo hi 0 l.
Proof.
  intros disk f0 set k0 h h100 b sx sm fname k lo hi F0 D Rd Hub Hist O Fn Lo Hi.
  destruct (read_good disk f0 set k0 h h100 b sx sm fname set k lo hi F0 D Rd Hub Hist O Fn Lo Hi) as (b' & l & A & B & _). exists b', l. auto.
Qed.
Print Assumptions C171_block.
(** The names of blocks. *)
Theorem C171_names : forall fname set k, parse_artio fname = Some (set, k) <-> names_block fname set k.
Proof. exact parse_artio_iff. Qed.
Print Assumptions C171_names.
(** A buffer that has been read must be closed before it is read again. *)
Theorem C171_protocol : forall disk b sx sm fname, ab_open b = true -> artio_read disk sx sm b fname = Panic.
Proof. intros disk b sx sm fname E. unfold artio_read. rewrite E. reflexivity. Qed.
Print Assumptions C171_protocol.
(** Close works exactly on an open buffer, and then the buffer can be read: the same read as of the buffer as it was, closed. *)
Theorem C171_close : forall b, (ab_open b = false -> artio_close b = Panic) /\
  (ab_open b = true -> exists b', artio_close b = Ok b' /\ ab_open b' = false /\
     ab_fileset b' = ab_fileset b /\ ab_masses b' = ab_masses b /\ ab_flags b' = ab_flags b /\ ab_xs b' = ab_xs b /\ ab_ms b' = ab_ms b).
Proof. intros b. unfold artio_close. split; intros ->; [reflexivity|]. eexists. repeat split; reflexivity. Qed.
Print Assumptions C171_close.
Example C171_nonvacuous : exists b, history example_disk (list_ascii_of_string "snap_1.p000") b /\ ab_open b = false /\
  dark_matter (example_set 1) (1 / 2) 0 9 0 [((1, 1, 1), 3); ((2, 1, 1), 3)].
Proof.
  destruct (new_artio example_disk (list_ascii_of_string "snap_1.p000")) as [b|] eqn:E; [|contradiction (example_new E)].
  exists b. split; [apply h_new; exact E|]. split; [destruct (new_inv _ _ _ E) as (? & ? & ? & _ & _ & _ & O); exact O|].
  assert (P : 10 ^ 19 <> 0) by (apply pow_nonzero; lra). assert (Q : 10 ^ 30 <> 0) by (apply pow_nonzero; lra).
  replace [((1, 1, 1), 3); ((2, 1, 1), 3)] with (map (fun p => (vec_in_mpc (example_set 1) (1 / 2) p, mass_in_msun (example_set 1) (1 / 2) 3)) [(1, 1, 1); (2 * 1, 1, 1)] ++ []).
  - apply dm_nbody; try reflexivity; [cbn; lia|]. apply dm_other; [cbn; lia|cbn; discriminate|]. apply dm_end. cbn. lia.
  - cbn [map app]. unfold vec_in_mpc, length_in_mpc, mass_in_msun, cm_per_mpc, g_per_msun, example_set. cbn [fs_length_unit fs_mass_unit].
    unfold cm_per_mpc, g_per_msun. repeat f_equal; field; auto.
Qed.

(** ** C172 *)
(** The fileset in a file's name is ignored: a block of another snapshot is read from the snapshot that the buffer was made for. *)
Theorem C172_ignored_refuted : forall disk b sx sm f1 f2 s1 s2 k, names_block f1 s1 k -> names_block f2 s2 k -> artio_read disk sx sm b f1 = artio_read disk sx sm b f2.
Proof. exact read_ignores_fileset. Qed.
Print Assumptions C172_ignored_refuted.
Theorem C172_other_snapshot_refuted : forall disk f0 set k0 h h100 b sx sm fname other k lo hi,
  names_block f0 set k0 -> disk set = Some h -> readable h -> fs_hubble h = Some h100 -> history disk f0 b -> ab_open b = false ->
  names_block fname other (Z.of_nat k) -> nth_error (fs_sfc h) k = Some lo -> nth_error (fs_sfc h) (S k) = Some (hi + 1)%Z ->
  exists b' l, artio_read disk sx sm b fname = Ok (b', Some (map fst l, map snd l)) /\ dark_matter h h100 lo hi 0 l.
Proof.
  intros disk f0 set k0 h h100 b sx sm fname other k lo hi F0 D Rd Hub Hist O Fn Lo Hi.
  destruct (read_good disk f0 set k0 h h100 b sx sm fname other k lo hi F0 D Rd Hub Hist O Fn Lo Hi) as (b' & l & A & B & _). exists b', l. auto.
Qed.
Print Assumptions C172_other_snapshot_refuted.
(** For instance the particles of snapshot 2 are not returned. *)
Lemma dark_matter_fun h h100 lo hi i l : dark_matter h h100 lo hi i l -> forall l', dark_matter h h100 lo hi i l' -> l = l'.
Proof.
  induction 1 as [i Hi|i l Hi NB _ IH|i ps m l Hi NB Ep Em _ IH]; intros l' K; inversion K; subst; try lia; try contradiction; auto.
  f_equal; [|auto]. replace ps0 with ps by congruence. replace m0 with m by congruence. reflexivity.
Qed.
Theorem C172_example_refuted : exists disk f0 b h2, history disk f0 b /\ ab_open b = false /\ disk (list_ascii_of_string "snap_2") = Some h2 /\ readable h2 /\
  forall sx sm l, dark_matter h2 (1 / 2) 0 9 0 l ->
    exists b' xs ms, artio_read disk sx sm b (list_ascii_of_string "snap_2.p000") = Ok (b', Some (xs, ms)) /\ xs <> map fst l.
Proof.
  destruct (new_artio example_disk (list_ascii_of_string "snap_1.p000")) as [b|] eqn:E; [|contradiction (example_new E)].
  destruct (new_inv _ _ _ E) as (_ & _ & _ & _ & _ & _ & O). exists example_disk, (list_ascii_of_string "snap_1.p000"), b, (example_set 10).
  split; [apply h_new; exact E|]. split; [exact O|]. split; [reflexivity|]. split; [apply example_readable|]. intros sx sm l D.
  destruct (C172_other_snapshot_refuted example_disk _ (list_ascii_of_string "snap_1") (Z.of_nat 0) (example_set 1) (1 / 2) b sx sm (list_ascii_of_string "snap_2.p000") (list_ascii_of_string "snap_2") 0 0 9
    name_snap_1 eq_refl (example_readable 1) eq_refl (h_new _ _ _ E) O name_snap_2 eq_refl eq_refl) as (b' & l' & R & D').
  exists b', (map fst l'), (map snd l'). split; [exact R|]. destruct C171_nonvacuous as (_ & _ & _ & D1). rewrite (dark_matter_fun _ _ _ _ _ _ D' _ D1).
  assert (P : 10 ^ 19 <> 0) by (apply pow_nonzero; lra).
  assert (D2 : dark_matter (example_set 10) (1 / 2) 0 9 0 (map (fun p => (vec_in_mpc (example_set 10) (1 / 2) p, mass_in_msun (example_set 10) (1 / 2) 3)) [(10, 10, 10); (2 * 10, 10, 10)] ++ [])).
  { apply dm_nbody; try reflexivity; [cbn; lia|]. apply dm_other; [cbn; lia|cbn; discriminate|]. apply dm_end. cbn. lia. }
  rewrite (dark_matter_fun _ _ _ _ _ _ D _ D2). cbn [map app fst]. intros K. assert (K1 : 1 = length_in_mpc (example_set 10) (1 / 2) 10) by (injection K; intros; assumption).
  unfold length_in_mpc, example_set in K1. cbn [fs_length_unit] in K1. unfold cm_per_mpc in K1. replace (10 * (2 * (308560 * 10 ^ 19)) / (308560 * 10 ^ 19) * (1 / 2)) with 10 in K1 by (field; auto). lra.
Qed.
Print Assumptions C172_example_refuted.

(** ** C173 *)
(** MinMass is the least mass of a dark matter species, so that no particle that Read returns is lighter. *)
Theorem C173_min_mass : forall disk f0 set k0 h h100 b, names_block f0 set k0 -> disk set = Some h -> readable h -> fs_hubble h = Some h100 -> history disk f0 b ->
  (exists i, is_nbody h i) ->
  exists m, artio_min_mass b = Some (Some m) /\
    (exists i mi, is_nbody h i /\ nth_error (fs_masses h) i = Some mi /\ m = mass_in_msun h h100 mi) /\
    (forall i mi, is_nbody h i -> nth_error (fs_masses h) i = Some mi -> m <= mass_in_msun h h100 mi) /\
    (forall lo hi l p mp, dark_matter h h100 lo hi 0 l -> In (p, mp) l -> m <= mp).
Proof.
  intros disk f0 set k0 h h100 b F0 D Rd Hub Hist (i0 & B0). apply parse_artio_iff in F0. pose proof (history_inv disk f0 set k0 h b F0 D Hist) as I.
  pose proof (min_mass_spec h set b I ltac:(rewrite (rd_masses h Rd), (rd_labels h Rd); lia)) as K. destruct (artio_min_mass b) as [[m|]|]; [|exfalso|contradiction].
  - destruct K as ((i & Hi & Bi & Ei) & All). exists m. split; [reflexivity|].
    assert (All' : forall i mi, is_nbody h i -> nth_error (fs_masses h) i = Some mi -> m <= mass_in_msun h h100 mi).
    { intros j mj Bj Ej. apply (All j); auto. rewrite (inv_mass h set b h100 j I Hub), Ej. reflexivity. }
    split; [|split; [exact All'|]].
    + rewrite (inv_mass h set b h100 i I Hub) in Ei. destruct (nth_error (fs_masses h) i) as [mi|] eqn:Em; [|discriminate]. cbn in Ei. injection Ei as <-. eauto.
    + intros lo hi l p mp DM. generalize dependent 0%nat. intros j DM. induction DM as [|j l Hj NB _ IH|j ps mj l Hj NB Ep Em _ IH]; [intros []|exact IH|].
      rewrite in_app_iff, in_map_iff. intros [(q & Eq & _)|K]; [|auto]. injection Eq as _ <-. eauto.
  - apply (K i0); auto. apply is_nbody_lt in B0. rewrite (rd_labels h Rd) in B0. rewrite (rd_masses h Rd). exact B0.
Qed.
Print Assumptions C173_min_mass.
Example C173_nonvacuous : is_nbody (example_set 1) 0 /\ readable (example_set 1).
Proof. split; [reflexivity|apply example_readable]. Qed.

(** ** C174 *)
(** The header of a block with dark matter: the box, the number of particles, the cosmology, and a region that holds an image of every particle. *)
Theorem C174_header_partial : forall disk f0 set k0 h h100 b sx sm fname k lo hi l a oM oL,
  names_block f0 set k0 -> disk set = Some h -> readable h -> fs_hubble h = Some h100 -> h100 <= 10 -> history disk f0 b -> ab_open b = false ->
  names_block fname set (Z.of_nat k) -> nth_error (fs_sfc h) k = Some lo -> nth_error (fs_sfc h) (S k) = Some (hi + 1)%Z ->
  let L := length_in_mpc h h100 (fs_box h) in 1 / 1000 <= L <= 1000000 ->
  fs_auni h = Some a -> fs_omegaM h = Some oM -> fs_omegaL h = Some oL ->
  dark_matter h h100 lo hi 0 l -> l <> [] -> (forall v m d, In (v, m) l -> 0 <= coord3 d v < L) ->
  exists b' hd, artio_read_header disk sx sm b fname = Ok (b', Some hd) /\ ah_width hd = L /\ ah_n hd = List.length l /\ ah_z hd = 1 / a - 1 /\ ah_omegaM hd = oM /\
    ah_omegaL hd = oL /\ ah_h100 hd = h100 /\ ab_open b' = false /\
    forall d, (0 <= coord3 d (ah_size hd) <= L / 2 \/ (coord3 d (ah_origin hd) = 0 /\ coord3 d (ah_size hd) = L)) /\
      forall v m, In (v, m) l -> exists j : Z, (-1 <= j <= 1)%Z /\ coord3 d (ah_origin hd) <= coord3 d v + IZR j * L <= coord3 d (ah_origin hd) + coord3 d (ah_size hd).
Proof.
  intros disk f0 set k0 h h100 b sx sm fname k lo hi l a oM oL F0 D Rd Hub H10 Hist O Fn Lo Hi L HL Ha HM HO DM Ne Hin.
  destruct (read_good disk f0 set k0 h h100 b sx sm fname set k lo hi F0 D Rd Hub Hist O Fn Lo Hi) as (b' & l' & R & DM' & _). rewrite (dark_matter_fun _ _ _ _ _ _ DM' _ DM) in R.
  destruct (C144_region L (map fst l)) as (o & w & E & Reg). { unfold L in *. lra. } { destruct l; [congruence|discriminate]. }
  { intros v d Hv. apply in_map_iff in Hv. destruct Hv as ([v' m] & <- & Hv). eapply Hin; eauto. }
  apply parse_artio_iff in F0. pose proof (history_inv disk f0 set k0 h b F0 D Hist) as I.
  destruct (header_of_read disk set h h100 b sx sm fname b' _ _ R (i_set _ _ _ I) D Hub H10 HL a oM oL o w Ha HM HO E) as (b2 & R2 & O2).
  exists b2. eexists. split; [exact R2|]. cbn. rewrite map_length. repeat (split; [reflexivity|]). split; [exact O2|].
  intros d. destruct (Reg d) as (A & B & _). split; [exact A|]. intros v m Hv. apply B. apply in_map_iff. exists (v, m). auto.
Qed.
Print Assumptions C174_header_partial.
(** A block without dark matter makes ReadHeader panic. *)
Theorem C174_empty_block_refuted : forall disk f0 set k0 h h100 b sx sm fname k lo hi,
  names_block f0 set k0 -> disk set = Some h -> readable h -> fs_hubble h = Some h100 -> history disk f0 b -> ab_open b = false ->
  names_block fname set (Z.of_nat k) -> nth_error (fs_sfc h) k = Some lo -> nth_error (fs_sfc h) (S k) = Some (hi + 1)%Z ->
  1 / 1000 <= length_in_mpc h h100 (fs_box h) <= 1000000 -> dark_matter h h100 lo hi 0 [] -> artio_read_header disk sx sm b fname = Panic.
Proof.
  intros disk f0 set k0 h h100 b sx sm fname k lo hi F0 D Rd Hub Hist O Fn Lo Hi HL DM.
  destruct (read_good disk f0 set k0 h h100 b sx sm fname set k lo hi F0 D Rd Hub Hist O Fn Lo Hi) as (b' & l' & R & DM' & _). rewrite (dark_matter_fun _ _ _ _ _ _ DM' _ DM) in R.
  apply parse_artio_iff in F0. pose proof (history_inv disk f0 set k0 h b F0 D Hist) as I. apply (header_panics disk set h h100 b sx sm fname b' _ R); auto. exact (i_set _ _ _ I).
Qed.
Print Assumptions C174_empty_block_refuted.
(** Block 1 of the example is such a block, block 0 meets the hypotheses of the first theorem. *)
Example C174_nonvacuous : dark_matter (example_set 1) (1 / 2) 10 19 0 [] /\ length_in_mpc (example_set 1) (1 / 2) (fs_box (example_set 1)) = 100.
Proof.
  split.
  - change (@nil (vec * R)) with (map (fun p => (vec_in_mpc (example_set 1) (1 / 2) p, mass_in_msun (example_set 1) (1 / 2) 3)) [] ++ []).
    apply dm_nbody; try reflexivity; [cbn; lia|]. apply dm_other; [cbn; lia|cbn; discriminate|]. apply dm_end. cbn. lia.
  - unfold length_in_mpc, example_set, cm_per_mpc. cbn [fs_length_unit fs_box]. unfold cm_per_mpc. assert (P : 10 ^ 19 <> 0) by (apply pow_nonzero; lra). field; auto.
Qed.

(** ** C175 *)
(** A fileset without N-BODY species: the buffer is made without an error, every block is read as empty without an error, and ReadHeader panics. *)
Theorem C175_no_nbody_refuted : forall disk f0 set k0 h h100, names_block f0 set k0 -> disk set = Some h -> readable h -> fs_hubble h = Some h100 -> (forall i, ~ is_nbody h i) ->
  (exists b, new_artio disk f0 = Some b) /\
  forall b sx sm fname k lo hi, history disk f0 b -> ab_open b = false -> names_block fname set (Z.of_nat k) -> nth_error (fs_sfc h) k = Some lo -> nth_error (fs_sfc h) (S k) = Some (hi + 1)%Z ->
    (exists b', artio_read disk sx sm b fname = Ok (b', Some ([], []))) /\
    (1 / 1000 <= length_in_mpc h h100 (fs_box h) <= 1000000 -> artio_read_header disk sx sm b fname = Panic).
Proof.
  intros disk f0 set k0 h h100 F0 D Rd Hub NB. split.
  - apply parse_artio_iff in F0. unfold new_artio. rewrite F0, D. unfold nbody_flags. pose proof (rd_labels h Rd) as A. pose proof (rd_some h Rd) as B.
    destruct (fs_labels h); [cbn in A; lia|]. eauto.
  - intros b sx sm fname k lo hi Hist O Fn Lo Hi.
    assert (DM : dark_matter h h100 lo hi 0 []).
    { assert (G : forall n i, (n + i = fs_species h)%nat -> dark_matter h h100 lo hi i []).
      { induction n as [|n IH]; intros i E; [apply dm_end; lia|]. apply dm_other; [lia|apply NB|apply IH; lia]. } apply (G (fs_species h)). lia. }
    split.
    + destruct (read_good disk f0 set k0 h h100 b sx sm fname set k lo hi F0 D Rd Hub Hist O Fn Lo Hi) as (b' & l' & R & DM' & _). rewrite (dark_matter_fun _ _ _ _ _ _ DM' _ DM) in R. eauto.
    + intros HL. exact (C174_empty_block_refuted disk f0 set k0 h h100 b sx sm fname k lo hi F0 D Rd Hub Hist O Fn Lo Hi HL DM).
Qed.
Print Assumptions C175_no_nbody_refuted.
Definition star_set : fileset :=
  {| fs_labels := [list_ascii_of_string "STAR"]; fs_species := 1; fs_masses := [1]; fs_sfc := [0; 10]%Z; fs_hubble := Some (1 / 2); fs_mass_unit := 1; fs_length_unit := 2 * cm_per_mpc; fs_box := 100;
     fs_auni := None; fs_omegaM := None; fs_omegaL := None; fs_particles := true; fs_count := fun _ _ => Some [5%nat]; fs_pos := fun _ _ _ => None |}.
Example C175_nonvacuous : readable star_set /\ forall i, ~ is_nbody star_set i.
Proof.
  split.
  - split; try reflexivity; [cbn; lia|]. intros k lo hi _ _. eexists. split; [reflexivity|]. split; [reflexivity|]. intros [|[|i]] K; cbn in K; discriminate K.
  - intros [|[|i]] K; cbn in K; discriminate K.
Qed.

(** ** C176 *)
(** When Read returns an error, ReadHeader panics. *)
Theorem C176_error_lost_refuted : forall disk f0 set k0 h h100 b sx sm fname b', names_block f0 set k0 -> disk set = Some h -> fs_hubble h = Some h100 -> history disk f0 b ->
  1 / 1000 <= length_in_mpc h h100 (fs_box h) <= 1000000 -> artio_read disk sx sm b fname = Ok (b', None) -> artio_read_header disk sx sm b fname = Panic.
Proof.
  intros disk f0 set k0 h h100 b sx sm fname b' F0 D Hub Hist HL R. apply parse_artio_iff in F0. pose proof (history_inv disk f0 set k0 h b F0 D Hist) as I.
  apply (header_panics disk set h h100 b sx sm fname b' _ R); auto. exact (i_set _ _ _ I).
Qed.
Print Assumptions C176_error_lost_refuted.
(** For instance for a name that is not the name of a block. *)
Example C176_nonvacuous : exists b b', history example_disk (list_ascii_of_string "snap_1.p000") b /\ artio_read example_disk [] [] b (list_ascii_of_string "snap_1.part") = Ok (b', None).
Proof.
  destruct (new_artio example_disk (list_ascii_of_string "snap_1.p000")) as [b|] eqn:E; [|contradiction (example_new E)].
  exists b. destruct (new_inv _ _ _ E) as (h & set & k & P & D & I & O). assert (F : ab_fileset b = list_ascii_of_string "snap_1").
  { rewrite (i_set _ _ _ I). vm_compute in P. injection P as <- _. reflexivity. }
  eexists. split; [apply h_new; exact E|]. unfold artio_read. rewrite O. cbn [with_open ab_fileset ab_masses ab_xs ab_ms ab_flags]. rewrite F. reflexivity.
Qed.
