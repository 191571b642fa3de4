(** * File names and the theorems about Read and ReadHeader. *)
From Verif Require Import ArtioSpec GoBaseFacts LoopFacts ArtioProofs.
From Coq Require Import Reals Lra Psatz List ZArith Lia Bool Ascii.
Import List ListNotations.
Local Open Scope R_scope.

Lemma decimal_all s v : decimal s v -> Forall is_digit s.
Proof. induction 1; [constructor; [assumption|constructor]|]. apply Forall_app. split; [assumption|constructor; [assumption|constructor]]. Qed.
Lemma go_int_chars s v : go_int s v -> Forall (fun a => is_digit a \/ a = "+"%char \/ a = "-"%char) s /\ s <> [].
Proof.
  intros K. assert (D : forall s v, decimal s v -> Forall (fun a => is_digit a \/ a = "+"%char \/ a = "-"%char) s /\ s <> []).
  { intros t w Hd. split; [apply decimal_all in Hd; eapply Forall_impl; [|exact Hd]; auto|]. intros ->. apply decimal_head in Hd. destruct Hd as (? & ? & ? & _). discriminate. }
  destruct K as [s v Hd _|s v Hd _|s v Hd _]; destruct (D _ _ Hd) as (A & B); split; auto; discriminate.
Qed.
Lemma not_num_char c : c = "."%char \/ c = "p"%char -> ~ (is_digit c \/ c = "+"%char \/ c = "-"%char).
Proof. intros [-> | ->] [K|[K|K]]; try discriminate; unfold is_digit in K; cbn in K; lia. Qed.
Lemma repeat_In_eq {A} (c x : A) n : In x (repeat c n) -> x = c.
Proof. apply repeat_spec. Qed.

Lemma last_dot_spec s i : last_dot s = Some i <-> exists x y, s = x ++ "."%char :: y /\ ~ In "."%char y /\ i = length x.
Proof.
  unfold last_dot. split.
  - destruct (index_byte "."%char (rev s)) as [j|] eqn:E; [|discriminate]. cbn [option_map]. intros K. injection K as <-.
    apply index_byte_some in E. destruct E as (E & N & Lj). rewrite rev_length in Lj.
    exists (rev (skipn (S j) (rev s))), (rev (firstn j (rev s))). split; [|split].
    + rewrite <- (rev_involutive s) at 1. rewrite E at 1. rewrite rev_app_distr. cbn [rev]. rewrite <- app_assoc. reflexivity.
    + rewrite <- in_rev. exact N.
    + rewrite rev_length, skipn_length, rev_length. lia.
  - intros (x & y & -> & N & ->). rewrite rev_app_distr. cbn [rev]. rewrite <- app_assoc. cbn [app]. rewrite index_byte_app by (rewrite <- in_rev; exact N).
    cbn [option_map]. f_equal. rewrite app_length, rev_length. cbn [length]. lia.
Qed.
Lemma parse_artio_iff fname set k : parse_artio fname = Some (set, k) <-> names_block fname set k.
Proof.
  unfold parse_artio, names_block. split.
  - destruct (last_dot fname) as [i|] eqn:E; [|discriminate]. apply last_dot_spec in E. destruct E as (x & y & -> & N & ->).
    destruct (Nat.eqb _ _); [discriminate|]. rewrite (app_assoc x ["."%char] y : x ++ "."%char :: y = (x ++ ["."%char]) ++ y).
    replace (S (length x)) with (length (x ++ ["."%char])) by (rewrite app_length; cbn; lia). rewrite skipn_app, skipn_all, Nat.sub_diag. cbn [skipn app].
    destruct (atoi (trim "p"%char y)) as [v|] eqn:A; [|discriminate]. intros K. injection K as <- <-.
    destruct (trim_spec "p"%char y) as (a & b & Ey & _). exists a, (trim "p"%char y), b. split; [|now apply atoi_spec].
    rewrite <- app_assoc. rewrite firstn_app, firstn_all, Nat.sub_diag. cbn [firstn]. rewrite app_nil_r. rewrite <- Ey. reflexivity.
  - intros (a & d & b & -> & G). pose proof (go_int_chars d k G) as (C & NE). rewrite Forall_forall in C.
    assert (N : ~ In "."%char (repeat "p"%char a ++ d ++ repeat "p"%char b)).
    { rewrite !in_app_iff. intros [K|[K|K]]; [apply repeat_spec in K; discriminate|apply C in K; revert K; apply not_num_char; auto|apply repeat_spec in K; discriminate]. }
    set (y := repeat "p"%char a ++ d ++ repeat "p"%char b) in *.
    assert (E : last_dot (set ++ "."%char :: y) = Some (length set)) by (apply last_dot_spec; exists set, y; auto). rewrite E.
    assert (LY : (0 < length y)%nat) by (unfold y; rewrite !app_length; destruct d; [congruence|cbn; lia]).
    replace (Nat.eqb _ _) with false by (symmetry; apply Nat.eqb_neq; rewrite app_length; cbn; lia).
    replace (skipn (S (length set)) (set ++ "."%char :: y)) with y.
    2:{ rewrite (app_assoc set ["."%char] y : set ++ "."%char :: y = (set ++ ["."%char]) ++ y). replace (S (length set)) with (length (set ++ ["."%char])) by (rewrite app_length; cbn; lia).
        rewrite skipn_app, skipn_all, Nat.sub_diag. reflexivity. }
    unfold y. rewrite trim_pad. rewrite trim_id.
    + apply atoi_spec in G. rewrite G. rewrite firstn_app, firstn_all, Nat.sub_diag. cbn [firstn]. rewrite app_nil_r. reflexivity.
    + destruct d as [|c d]; [congruence|]. cbn [hd_error]. intros K. injection K as ->. specialize (C _ (or_introl eq_refl)). revert C. apply not_num_char. auto.
    + destruct (rev d) as [|c l] eqn:R; [discriminate|]. cbn [hd_error]. intros K. injection K as ->. assert (In "p"%char d) by (apply in_rev; rewrite R; left; auto).
      specialize (C _ H). revert C. apply not_num_char. auto.
Qed.

Section Disk.
Variable disk : bytes -> option fileset.
(** All that Read depends on is the number of the block. *)
Lemma read_good f0 set k0 h h100 b sx sm fname set' k lo hi :
  names_block f0 set k0 -> disk set = Some h -> readable h -> fs_hubble h = Some h100 -> history disk f0 b -> ab_open b = false ->
  names_block fname set' (Z.of_nat k) -> nth_error (fs_sfc h) k = Some lo -> nth_error (fs_sfc h) (S k) = Some (hi + 1)%Z ->
  exists b' l, artio_read disk sx sm b fname = Ok (b', Some (map fst l, map snd l)) /\ dark_matter h h100 lo hi 0 l /\ ab_open b' = true.
Proof.
  intros F0 D Rd Hub Hist Op Fn Lo Hi. apply parse_artio_iff in F0, Fn.
  pose proof (history_inv disk f0 set k0 h b F0 D Hist) as I. destruct (rd_blocks h Rd k lo hi Lo Hi) as (c & Ec & Lc & Pc).
  unfold artio_read. rewrite Op. cbn [with_open ab_fileset ab_masses ab_xs ab_ms ab_flags]. rewrite (i_set _ _ _ I), D, (rd_open _ Rd). cbn [negb].
  rewrite (i_flags _ _ _ I), Fn. unfold at_. replace (Z.of_nat k <? 0)%Z with false by (symmetry; apply Z.ltb_ge; lia).
  replace (Z.of_nat k + 1 <? 0)%Z with false by (symmetry; apply Z.ltb_ge; lia). replace (Z.to_nat (Z.of_nat k + 1)) with (S k) by lia. rewrite Nat2Z.id, Lo, Hi.
  replace (hi + 1 - 1)%Z with hi by lia. rewrite Ec.
  assert (HM : length (ab_masses b) = fs_species h) by (rewrite (i_masses _ _ _ I), map_length; apply (rd_masses _ Rd)).
  erewrite read_species_good; [|exact (rd_labels _ Rd)|exact (rd_masses _ Rd)|exact Lc|exact Pc|exact (i_flags _ _ _ I)|exact HM|exact (i_xs _ _ _ I)|exact (i_ms _ _ _ I)|exact (i_xe _ _ _ I)|exact (i_me _ _ _ I)].
  rewrite gather_all, gather_all_ms.
  destruct (dark_matter_lists h lo hi c (rd_labels _ Rd) (rd_masses _ Rd) Lc Pc h100 (fs_species h) 0 ltac:(lia)
    (h100_of h / (CmdModel.MpcMks * 100) * fs_length_unit h) (h100_of h / (CmdModel.MSunMks * 1000) * fs_mass_unit h)) as (l & DM & Em & Ex).
  - intros x. unfold length_in_mpc, h100_of, cm_per_mpc, CmdModel.MpcMks. rewrite Hub. assert (10 ^ 19 <> 0) by (apply pow_nonzero; lra). replace (10 ^ 22) with (1000 * 10 ^ 19) by (cbn; ring). field; auto.
  - intros x. unfold mass_in_msun, h100_of, g_per_msun, CmdModel.MSunMks. rewrite Hub. assert (10 ^ 30 <> 0) by (apply pow_nonzero; lra). field; auto.
  - eexists. exists l. split; [|split; [exact DM|]].
    + rewrite (i_masses _ _ _ I). rewrite Em, Ex. reflexivity.
    + reflexivity.
Qed.
(** The name of the fileset is ignored. *)
Lemma read_ignores_fileset b sx sm f1 f2 s1 s2 k : names_block f1 s1 k -> names_block f2 s2 k -> artio_read disk sx sm b f1 = artio_read disk sx sm b f2.
Proof. intros F1 F2. apply parse_artio_iff in F1, F2. unfold artio_read. rewrite F1, F2. reflexivity. Qed.
End Disk.
