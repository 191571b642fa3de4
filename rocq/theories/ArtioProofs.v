(** * Proofs about ARTIO snapshots. *)
From Verif Require Import ArtioSpec LoopFacts.
From Coq Require Import Reals Lra Psatz List ZArith Lia Bool.
Import List ListNotations.
Local Open Scope R_scope.

Definition flag (h : fileset) (i : nat) : bool := beq (nth i (fs_labels h) []) (lit "N-BODY").
Lemma flag_iff h i : (i < length (fs_labels h))%nat -> (flag h i = true <-> is_nbody h i).
Proof.
  intros Hi. unfold flag, is_nbody, beq, lit. rewrite (nth_error_nth' (fs_labels h) [] Hi). destruct (list_eq_dec _ _ _) as [E|E]; [rewrite E; tauto|].
  split; [discriminate|]. intros K. injection K as K. contradiction.
Qed.
Lemma is_nbody_lt h i : is_nbody h i -> (i < length (fs_labels h))%nat.
Proof. unfold is_nbody. intros K. apply nth_error_Some. congruence. Qed.
Lemma flags_rd h flags i : nbody_flags h = Some flags -> rd flags i = if (i <? length (fs_labels h))%nat then Some (flag h i) else None.
Proof.
  unfold nbody_flags. intros K. assert (E : flags = map (fun l => beq l (lit "N-BODY")) (fs_labels h)) by (destruct (fs_labels h); [discriminate|injection K; auto]).
  rewrite E. unfold rd. rewrite nth_error_map. destruct (Nat.ltb_spec i (length (fs_labels h))) as [L|L].
  - rewrite (nth_error_nth' _ [] L). reflexivity.
  - apply nth_error_None in L. rewrite L. reflexivity.
Qed.

(** What NewARTIOBuffer sets and no operation changes. *)
Record inv (h : fileset) (set : bytes) (b : artio_buf) : Prop := {
  i_set : ab_fileset b = set; i_masses : ab_masses b = map (fun m => m * (h100_of h / (CmdModel.MSunMks * 1000) * fs_mass_unit h)) (fs_masses h);
  i_flags : nbody_flags h = Some (ab_flags b);
  i_xs : length (ab_xs b) = fs_species h; i_ms : length (ab_ms b) = fs_species h;
  i_xe : forall i, flag h i = false -> nth i (ab_xs b) [] = []; i_me : forall i, flag h i = false -> nth i (ab_ms b) [] = [] }.

Lemma read_species_keeps h flags masses lo hi counts : nbody_flags h = Some flags -> forall l n0 xs0 ms0 tot xs ms,
  (forall i, flag h i = false -> nth i xs0 [] = []) -> (forall i, flag h i = false -> nth i ms0 [] = []) ->
  fold_left (read_one h flags masses lo hi counts) l (Ok (n0, xs0, ms0)) = Ok (tot, xs, ms) ->
  length xs = length xs0 /\ length ms = length ms0 /\ (forall i, flag h i = false -> nth i xs [] = []) /\ (forall i, flag h i = false -> nth i ms [] = []).
Proof.
  intros HF. set (body := read_one h flags masses lo hi counts). induction l as [|i l IH]; intros n0 xs0 ms0 tot xs ms Hx Hm K; cbn [fold_left] in K.
  { injection K as <- <- <-. auto. }
  assert (Bad : forall st, st = Err \/ st = Panic -> fold_left body l st = Ok (tot, xs, ms) -> False).
  { intros st Hst. clear K IH. revert st Hst. induction l as [|j l IHl]; intros st Hst K; cbn [fold_left] in K; [destruct Hst; congruence|].
    apply (IHl (body st j)); auto. destruct Hst as [-> | ->]; cbn; auto. }
  destruct (body (Ok (n0, xs0, ms0)) i) as [[[n1 xs1] ms1]| |] eqn:E; [|exfalso; exact (Bad Err (or_introl eq_refl) K)|exfalso; exact (Bad Panic (or_intror eq_refl) K)].
  assert (S1 : length xs1 = length xs0 /\ length ms1 = length ms0 /\ (forall i, flag h i = false -> nth i xs1 [] = []) /\ (forall i, flag h i = false -> nth i ms1 [] = [])).
  { clear K IH Bad. unfold body, read_one in E. cbn [bindr] in E. rewrite (flags_rd h flags i HF) in E. destruct (i <? length (fs_labels h))%nat; [|discriminate].
    destruct (flag h i) eqn:Fi; destruct (rd counts i) as [n|]; try discriminate; [|injection E as <- <- <-; auto].
    destruct (rd xs0 i); [|discriminate]. destruct (fs_pos h i lo hi) as [ps|]; [|discriminate].
    destruct (wr xs0 i ps) as [xs'|] eqn:W; [|discriminate]. destruct (rd ms0 i); [|discriminate].
    assert (G : forall (A : Type) (l0 l1 : list (list A)) v, wr l0 i v = Some l1 -> (forall k, flag h k = false -> nth k l0 [] = []) ->
      length l1 = length l0 /\ (forall k, flag h k = false -> nth k l1 [] = [])).
    { intros A la lb v W0 H0. destruct (wr_inv la lb i v [] W0) as (_ & L1 & N1). split; [auto|]. intros k Fk. rewrite N1. destruct (Nat.eqb_spec k i); [congruence|auto]. }
    destruct (G _ _ _ _ W Hx) as (G1 & G2).
    destruct (rd masses i); [|destruct (Nat.eqb n 0); [|discriminate]]; destruct (wr ms0 i _) as [ms'|] eqn:W'; try discriminate; injection E as <- <- <-;
      destruct (G _ _ _ _ W' Hm); repeat split; auto. }
  destruct S1 as (A & B & C & D). destruct (IH n1 xs1 ms1 tot xs ms C D K) as (A' & B' & C' & D'). repeat split; auto; congruence.
Qed.

Section Disk.
Variable disk : bytes -> option fileset.
Lemma with_open_inv h set b o : inv h set b -> inv h set (with_open b o).
Proof. intros []; split; auto. Qed.
Lemma read_inv h set sx sm b f b' r : disk set = Some h -> inv h set b -> artio_read disk sx sm b f = Ok (b', r) -> inv h set b'.
Proof.
  intros HD I. unfold artio_read. destruct (ab_open b); [discriminate|]. cbn [with_open ab_fileset ab_masses ab_xs ab_ms ab_flags]. rewrite (i_set _ _ _ I), HD.
  destruct (negb (fs_particles h)); [intros K; injection K as <- <-; now apply (with_open_inv h set b true)|].
  rewrite (i_flags _ _ _ I). destruct (parse_artio f) as [[s k]|]; [|intros K; injection K as <- <-; now apply (with_open_inv h set b true)].
  destruct (at_ (fs_sfc h) k) as [lo|]; [|discriminate]. destruct (at_ (fs_sfc h) (k + 1)) as [hi|]; [|discriminate].
  destruct (read_species _ _ _ _ _ _ _ _) as [[[tot xs] ms]| |] eqn:E; try discriminate; [|intros K; injection K as <- <-; now apply (with_open_inv h set b true)].
  unfold read_species in E. apply read_species_keeps in E; [|apply (i_flags _ _ _ I)|apply (i_xe _ _ _ I)|apply (i_me _ _ _ I)].
  destruct E as (A & B & C & D). destruct (gather_out xs tot sx); [|discriminate]. destruct (gather_out ms tot sm); [|discriminate].
  intros K. injection K as <- <-. destruct I. split; cbn; auto; congruence.
Qed.
Lemma new_inv f0 b : new_artio disk f0 = Some b -> exists h set k, parse_artio f0 = Some (set, k) /\ disk set = Some h /\ inv h set b /\ ab_open b = false.
Proof.
  unfold new_artio. destruct (parse_artio f0) as [[set k]|]; [|discriminate]. destruct (disk set) as [h|] eqn:D; [|discriminate].
  destruct (nbody_flags h) as [fl|] eqn:F; [|discriminate]. intros K. injection K as <-. exists h, set, k. repeat split; cbn; auto; try apply repeat_length;
  intros i _; destruct (Nat.ltb_spec i (fs_species h)); [apply nth_repeat|apply nth_overflow; rewrite repeat_length; auto|apply nth_repeat|apply nth_overflow; rewrite repeat_length; auto].
Qed.
Lemma history_inv f0 set k h b : parse_artio f0 = Some (set, k) -> disk set = Some h -> history disk f0 b -> inv h set b.
Proof.
  intros P D H. induction H as [b N|b sx sm f b' r _ IH R|b b' _ IH C|b sx sm f b' r _ IH R].
  - destruct (new_inv f0 b N) as (h' & set' & k' & P' & D' & I & _). rewrite P in P'. injection P' as <- <-. rewrite D in D'. injection D' as <-. exact I.
  - eapply read_inv; eauto.
  - unfold artio_close in C. destruct (ab_open b); [|discriminate]. injection C as <-. now apply with_open_inv.
  - unfold artio_read_header in R. destruct (artio_read disk sx sm b f) as [[b1 out]| |] eqn:E; try discriminate. cbn [bindr] in R.
    assert (I1 : inv h set b1) by (eapply read_inv; eauto). cbn [with_open ab_fileset] in R. rewrite (i_set _ _ _ I1), D in R.
    assert (I2 : inv h set (with_open b1 false)) by now apply with_open_inv.
    repeat match type of R with
    | context [if ?c then _ else _] => destruct c
    | context [match ?c with _ => _ end] => destruct c
    end; try discriminate; injection R as <- <-; exact I2.
Qed.
End Disk.

(** Reading a good block. *)
Section Good.
Variables (h : fileset) (lo hi : Z) (c : list nat).
Hypothesis Hl : length (fs_labels h) = fs_species h.
Hypothesis Hm : length (fs_masses h) = fs_species h.
Hypothesis Hc : length c = fs_species h.
Hypothesis Hp : forall i, is_nbody h i -> exists ps, fs_pos h i lo hi = Some ps /\ nth_error c i = Some (length ps).
Definition tx (i : nat) : list vec := if flag h i then match fs_pos h i lo hi with Some ps => ps | None => [] end else [].
Definition tm (masses : list R) (i : nat) : list R := if flag h i then repeat (nth i masses 0) (length (tx i)) else [].
Lemma read_species_good flags masses xs0 ms0 : nbody_flags h = Some flags -> length masses = fs_species h -> length xs0 = fs_species h -> length ms0 = fs_species h ->
  (forall i, flag h i = false -> nth i xs0 [] = []) -> (forall i, flag h i = false -> nth i ms0 [] = []) ->
  read_species h flags masses lo hi c xs0 ms0 = Ok (length (flat_map tx (seq 0 (fs_species h))), map tx (seq 0 (fs_species h)), map (tm masses) (seq 0 (fs_species h))).
Proof.
  intros HF HM HX HMS EX EM. unfold read_species. rewrite Hc. set (N := fs_species h) in *.
  assert (G : forall j, (j <= N)%nat -> exists xs ms, fold_left (read_one h flags masses lo hi c) (seq 0 j) (Ok (0%nat, xs0, ms0)) =
      Ok (length (flat_map tx (seq 0 j)), xs, ms) /\ length xs = N /\ length ms = N /\
      (forall k, nth k xs [] = if (k <? j)%nat then tx k else nth k xs0 []) /\ (forall k, nth k ms [] = if (k <? j)%nat then tm masses k else nth k ms0 [])).
  { induction j as [|j IH]; intros Hj.
    - exists xs0, ms0. repeat split; auto; intros k; destruct (Nat.ltb_spec k 0); auto; lia.
    - destruct (IH ltac:(lia)) as (xs & ms & E & LX & LM & NX & NM). rewrite seq_S, fold_left_app, E. cbn [fold_left Nat.add read_one bindr].
      unfold read_one. cbn [bindr]. rewrite (flags_rd h flags j HF). replace (j <? length (fs_labels h))%nat with true by (symmetry; apply Nat.ltb_lt; lia).
      rewrite flat_map_app, app_length. cbn [flat_map]. rewrite app_nil_r.
      destruct (flag h j) eqn:Fj.
      + destruct (Hp j) as (ps & Pj & Cj). { apply flag_iff; auto; lia. }
        assert (TX : tx j = ps) by (unfold tx; rewrite Fj, Pj; reflexivity). unfold rd at 1. rewrite Cj. rewrite (rd_nth xs j []) by lia. rewrite Pj.
        destruct (wr_some xs j ps [] ltac:(lia)) as (xs' & Wx & Lx' & Nx'). rewrite Wx. rewrite (rd_nth ms j []) by lia. rewrite (rd_nth masses j 0) by lia.
        destruct (wr_some ms j (repeat (nth j masses 0) (length ps)) [] ltac:(lia)) as (ms' & Wm & Lm' & Nm'). rewrite Wm.
        exists xs', ms'. rewrite TX. repeat split; [congruence|congruence| |].
        * intros k. rewrite Nx', NX. destruct (Nat.eqb_spec k j) as [->|Nk]; [replace (j <? S j)%nat with true by (symmetry; apply Nat.ltb_lt; lia); auto|].
          destruct (Nat.ltb_spec k j), (Nat.ltb_spec k (S j)); auto; lia.
        * intros k. rewrite Nm', NM. destruct (Nat.eqb_spec k j) as [->|Nk].
          { replace (j <? S j)%nat with true by (symmetry; apply Nat.ltb_lt; lia). unfold tm. rewrite Fj, TX. reflexivity. }
          destruct (Nat.ltb_spec k j), (Nat.ltb_spec k (S j)); auto; lia.
      + rewrite (rd_nth c j 0%nat) by lia. exists xs, ms. assert (TX : tx j = []) by (unfold tx; rewrite Fj; reflexivity). rewrite TX. cbn [length]. rewrite Nat.add_0_r.
        repeat split; auto.
        * intros k. rewrite NX. destruct (Nat.ltb_spec k j), (Nat.ltb_spec k (S j)); auto; [lia|]. replace k with j by lia. rewrite TX. auto.
        * intros k. rewrite NM. destruct (Nat.ltb_spec k j), (Nat.ltb_spec k (S j)); auto; [lia|]. replace k with j by lia. unfold tm. rewrite Fj. auto. }
  destruct (G N (le_n N)) as (xs & ms & E & LX & LM & NX & NM). rewrite E. f_equal. f_equal; [f_equal|].
  - apply nth_ext with (d := []) (d' := tx 0%nat); rewrite ?map_length, ?seq_length; auto. intros k Hk. rewrite NX. replace (k <? N)%nat with true by (symmetry; apply Nat.ltb_lt; lia).
    rewrite map_nth with (d := 0%nat). rewrite seq_nth by lia. reflexivity.
  - apply nth_ext with (d := []) (d' := tm masses 0%nat); rewrite ?map_length, ?seq_length; auto. intros k Hk. rewrite NM. replace (k <? N)%nat with true by (symmetry; apply Nat.ltb_lt; lia).
    rewrite map_nth with (d := 0%nat). rewrite seq_nth by lia. reflexivity.
Qed.
Lemma gather_all {A} (f : nat -> list A) l s : gather_out (map f l) (length (flat_map f l)) s = Some (flat_map f l).
Proof. unfold gather_out. rewrite <- flat_map_concat_map. rewrite Nat.leb_refl, Nat.sub_diag. cbn [firstn]. now rewrite app_nil_r. Qed.
Lemma gather_all_ms masses s : gather_out (map (tm masses) (seq 0 (fs_species h))) (length (flat_map tx (seq 0 (fs_species h)))) s = Some (flat_map (tm masses) (seq 0 (fs_species h))).
Proof.
  rewrite <- gather_all with (s := s). f_equal. induction (seq 0 (fs_species h)) as [|i l IH]; [reflexivity|]. cbn [flat_map]. rewrite !app_length, IH. f_equal.
  unfold tm. destruct (flag h i) eqn:F; [now rewrite repeat_length|]. unfold tx. rewrite F. reflexivity.
Qed.
Lemma dark_matter_lists h100 n i : (n + i = fs_species h)%nat ->
  forall u w, (forall x, x * u = length_in_mpc h h100 x) -> (forall m, m * w = mass_in_msun h h100 m) ->
  let ms := map (fun m => m * w) (fs_masses h) in
  exists l, dark_matter h h100 lo hi i l /\ flat_map (tm ms) (seq i n) = map snd l /\ map (scale u) (flat_map tx (seq i n)) = map fst l.
Proof.
  intros E u w Hu Hw ms. revert i E. induction n as [|n IH]; intros i E; [exists []; split; [apply dm_end; lia|auto]|].
  destruct (IH (S i) ltac:(lia)) as (l & D & Em & Ex). cbn [seq flat_map]. destruct (flag h i) eqn:F.
  - assert (NB : is_nbody h i) by (apply flag_iff; auto; lia). destruct (Hp i NB) as (ps & Ep & _).
    exists (map (fun p => (vec_in_mpc h h100 p, mass_in_msun h h100 (nth i (fs_masses h) 0))) ps ++ l).
    assert (TX : tx i = ps) by (unfold tx; rewrite F, Ep; reflexivity).
    repeat split.
    + apply dm_nbody with (m := nth i (fs_masses h) 0); auto; [lia|apply nth_error_nth'; lia].
    + rewrite map_app, Em. f_equal. rewrite map_map. cbn [snd]. unfold tm. rewrite F, TX. unfold ms. replace (nth i (map (fun m => m * w) (fs_masses h)) 0) with (mass_in_msun h h100 (nth i (fs_masses h) 0)).
      * induction ps as [|p ps IHp]; cbn; [auto|]. clear -Hw. induction ps as [|q ps IHq]; cbn; [auto|]. f_equal. auto.
      * rewrite <- Hw. rewrite (nth_indep (map (fun m => m * w) (fs_masses h)) 0 (0 * w)) by (rewrite map_length; lia). rewrite map_nth with (f := fun m => m * w). reflexivity.
    + rewrite map_app, map_app, Ex, map_map. cbn [fst]. rewrite TX. f_equal. apply map_ext. intros [[x y] z]. cbn. now rewrite !Hu.
  - exists l. unfold tm, tx. rewrite F. repeat split; auto. apply dm_other; auto; [lia|]. intros NB. apply flag_iff in NB; [congruence|lia].
Qed.
End Good.
