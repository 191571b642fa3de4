(** * ReadHeader and MinMass. *)
From Verif Require Import ArtioSpec GoBaseFacts LoopFacts ArtioProofs ArtioProofs2.
From Coq Require Import Reals Lra Psatz List ZArith Lia Bool.
Import List ListNotations.
Local Open Scope R_scope.

Lemma width_eq h h100 : fs_hubble h = Some h100 -> fs_box h * (h100_of h / (CmdModel.MpcMks * 100) * fs_length_unit h) = length_in_mpc h h100 (fs_box h).
Proof.
  intros Hub. unfold length_in_mpc, h100_of, cm_per_mpc, CmdModel.MpcMks. rewrite Hub. assert (10 ^ 19 <> 0) by (apply pow_nonzero; lra).
  replace (10 ^ 22) with (1000 * 10 ^ 19) by (cbn; ring). field; auto.
Qed.
Lemma in_range_width w : 1 / 1000 <= w <= 1000000 -> Rltb w (1 / 1000) || Rltb 1000000 w = false.
Proof. intros Hw. unfold Rltb. destruct (Rlt_dec w (1 / 1000)), (Rlt_dec 1000000 w); cbn; auto; lra. Qed.

Section Disk.
Variable disk : bytes -> option fileset.
Lemma read_fileset b sx sm f b' r : artio_read disk sx sm b f = Ok (b', r) -> ab_fileset b' = ab_fileset b.
Proof.
  unfold artio_read. destruct (ab_open b); [discriminate|]. cbn [with_open ab_fileset ab_masses ab_xs ab_ms ab_flags].
  repeat match goal with
  | |- context [if ?c then _ else _] => destruct c
  | |- context [match ?c with _ => _ end] => destruct c
  end; try discriminate; intros K; injection K as <- <-; reflexivity.
Qed.
Lemma header_of_read set h h100 b sx sm f b' xs ms : artio_read disk sx sm b f = Ok (b', Some (xs, ms)) -> ab_fileset b = set -> disk set = Some h -> fs_hubble h = Some h100 ->
  h100 <= 10 -> 1 / 1000 <= length_in_mpc h h100 (fs_box h) <= 1000000 ->
  forall a oM oL o w, fs_auni h = Some a -> fs_omegaM h = Some oM -> fs_omegaL h = Some oL -> bounding_box xs (length_in_mpc h h100 (fs_box h)) = Some (o, w) ->
  exists b2, artio_read_header disk sx sm b f =
    Ok (b2, Some {| ah_width := length_in_mpc h h100 (fs_box h); ah_origin := o; ah_size := w; ah_n := length xs; ah_z := 1 / a - 1; ah_omegaM := oM; ah_omegaL := oL; ah_h100 := h100 |}) /\
    ab_open b2 = false.
Proof.
  intros E S D Hub H10 Hw a oM oL o w Ha HM HL HB. unfold artio_read_header. rewrite E. cbn [bindr]. cbn [with_open ab_fileset]. rewrite (read_fileset _ _ _ _ _ _ E), S, D.
  rewrite (width_eq h h100 Hub), (in_range_width _ Hw), HB, Ha, HM, HL, Hub. unfold Rltb. destruct (Rlt_dec 10 h100); [lra|]. eexists. split; reflexivity.
Qed.
(** No particles, or an error of Read. *)
Lemma header_panics set h h100 b sx sm f b' r : artio_read disk sx sm b f = Ok (b', r) -> match r with None => True | Some (xs, _) => xs = [] end ->
  ab_fileset b = set -> disk set = Some h -> fs_hubble h = Some h100 -> 1 / 1000 <= length_in_mpc h h100 (fs_box h) <= 1000000 ->
  artio_read_header disk sx sm b f = Panic.
Proof.
  intros E Hr S D Hub Hw. unfold artio_read_header. rewrite E. cbn [bindr]. cbn [with_open ab_fileset]. rewrite (read_fileset _ _ _ _ _ _ E), S, D.
  rewrite (width_eq h h100 Hub), (in_range_width _ Hw). destruct r as [[xs ms]|]; [rewrite Hr|]; reflexivity.
Qed.
End Disk.

(** MinMass *)
Lemma min_mass_spec h set b : inv h set b -> (length (fs_masses h) <= length (fs_labels h))%nat ->
  match artio_min_mass b with
  | None => False
  | Some None => forall i, (i < length (fs_masses h))%nat -> ~ is_nbody h i
  | Some (Some m) => (exists i, (i < length (fs_masses h))%nat /\ is_nbody h i /\ nth_error (ab_masses b) i = Some m) /\
                     forall i m', is_nbody h i -> nth_error (ab_masses b) i = Some m' -> m <= m'
  end.
Proof.
  intros I HL. unfold artio_min_mass. set (N := length (ab_masses b)). assert (EN : N = length (fs_masses h)) by (unfold N; rewrite (i_masses _ _ _ I); apply map_length).
  rewrite <- EN in *. set (body := fun st i => _).
  assert (G : forall j, (j <= N)%nat -> match fold_left body (seq 0 j) (Some None) with
    | None => False
    | Some None => forall i, (i < j)%nat -> ~ is_nbody h i
    | Some (Some m) => (exists i, (i < j)%nat /\ is_nbody h i /\ nth_error (ab_masses b) i = Some m) /\ forall i m', (i < j)%nat -> is_nbody h i -> nth_error (ab_masses b) i = Some m' -> m <= m'
    end).
  { induction j as [|j IH]; intros Hj; [cbn; intros; lia|]. rewrite seq_S, fold_left_app. cbn [fold_left Nat.add]. specialize (IH ltac:(lia)).
    destruct (fold_left body (seq 0 j) (Some None)) as [acc|]; [|destruct IH]. unfold body at 1. rewrite (rd_nth (ab_masses b) j 0) by (fold N; lia).
    rewrite (flags_rd h _ j (i_flags _ _ _ I)). replace (j <? length (fs_labels h))%nat with true by (symmetry; apply Nat.ltb_lt; lia).
    assert (NE : nth_error (ab_masses b) j = Some (nth j (ab_masses b) 0)) by (apply nth_error_nth'; fold N; lia). set (m := nth j (ab_masses b) 0) in *.
    destruct (flag h j) eqn:F.
    - assert (NB : is_nbody h j) by (apply flag_iff; auto; lia). destruct acc as [a|].
      + destruct IH as ((i & Hi & Bi & Ei) & Hall). unfold Rltb. destruct (Rlt_dec m a).
        * split; [exists j; auto|]. intros i' m' Hi' Bi' Ei'. destruct (Nat.eq_dec i' j) as [->|]; [assert (m' = m) by congruence; lra|]. specialize (Hall i' m' ltac:(lia) Bi' Ei'). lra.
        * split; [exists i; auto|]. intros i' m' Hi' Bi' Ei'. destruct (Nat.eq_dec i' j) as [->|]; [assert (m' = m) by congruence; lra|]. exact (Hall i' m' ltac:(lia) Bi' Ei').
      + split; [exists j; auto|]. intros i' m' Hi' Bi' Ei'. destruct (Nat.eq_dec i' j) as [->|]; [assert (m' = m) by congruence; lra|]. exfalso. apply (IH i'); auto; lia.
    - assert (NB : ~ is_nbody h j) by (intros NB; apply flag_iff in NB; [congruence|lia]). destruct acc as [a|].
      + destruct IH as ((i & Hi & Bi & Ei) & Hall). split; [exists i; auto|]. intros i' m' Hi' Bi' Ei'. destruct (Nat.eq_dec i' j) as [->|]; [contradiction|]. exact (Hall i' m' ltac:(lia) Bi' Ei').
      + intros i Hi. destruct (Nat.eq_dec i j) as [->|]; auto. apply IH. lia. }
  specialize (G N (le_n N)). destruct (fold_left body (seq 0 N) (Some None)) as [[m|]|]; auto. destruct G as (A & B). split; auto.
  intros i m' Bi Ei. apply (B i m'); auto. unfold N. apply nth_error_Some. congruence.
Qed.
Lemma inv_mass h set b h100 i : inv h set b -> fs_hubble h = Some h100 -> nth_error (ab_masses b) i = option_map (mass_in_msun h h100) (nth_error (fs_masses h) i).
Proof.
  intros I Hub. rewrite (i_masses _ _ _ I), nth_error_map. destruct (nth_error (fs_masses h) i); [|reflexivity]. cbn [option_map]. f_equal.
  unfold mass_in_msun, h100_of, g_per_msun, CmdModel.MSunMks. rewrite Hub. assert (10 ^ 30 <> 0) by (apply pow_nonzero; lra). field; auto.
Qed.
