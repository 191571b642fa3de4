(** * Proofs about FindSubhalos of both finders. *)
From Coq Require Import Lra Lia ZArith List Permutation FinFun Sorting.Sorted.
From Verif Require Import LoopFacts ListFacts InterpProofs.
From Verif Require Import GridModel GridSpec GridProofs FinderProofs FinderProofs2.
Import ListNotations.
Local Open Scope R_scope.

Lemma fold_opt_efold {S A} (body : A -> S -> option S) l s :
  fold_left (fun acc a => match acc with Some s => body a s | None => None end) l (Some s) = efold body l s.
Proof.
  revert s; induction l as [|a l IH]; intros s; [reflexivity|]. cbn. destruct (body a s); [apply IH|].
  clear. induction l; [reflexivity|assumption].
Qed.

Lemma efold_filter {A B} (p : A -> bool) (f : A -> B) (body : A -> list B -> option (list B)) l s :
  (forall a t, In a l -> body a t = Some (if p a then t ++ [f a] else t)) ->
  efold body l s = Some (s ++ map f (filter p l)).
Proof.
  revert s; induction l as [|a l IH]; intros s H; cbn; [now rewrite app_nil_r|].
  rewrite H by now left. rewrite IH by (intros; apply H; now right). destruct (p a); [|reflexivity].
  cbn. now rewrite <- app_assoc.
Qed.

Lemma efold_append {A B} (f : A -> list B) (body : A -> list B -> option (list B)) l s :
  (forall a t, In a l -> body a t = Some (t ++ f a)) -> efold body l s = Some (s ++ flat_map f l).
Proof.
  revert s; induction l as [|a l IH]; intros s H; cbn; [now rewrite app_nil_r|].
  rewrite H by now left. rewrite IH by (intros; apply H; now right). now rewrite <- app_assoc.
Qed.

(** ** The suffix maximum *)
Lemma cumulative_max_ok xs : xs <> [] -> exists ms, cumulative_max xs = Some ms /\ length ms = length xs /\
  forall i, (i < length xs)%nat -> (forall j, (i <= j < length xs)%nat -> nth j xs 0 <= nth i ms 0) /\
    exists j, (i <= j < length xs)%nat /\ nth i ms 0 = nth j xs 0.
Proof.
  intros Hne. assert (Hn : (0 < length xs)%nat) by (destruct xs; cbn; [congruence|lia]). unfold cumulative_max.
  replace (Z.of_nat (length xs) - 1)%Z with (Z.of_nat (length xs - 1)) by lia.
  rewrite (at_nat xs (length xs - 1) 0) by lia.
  destruct (loop_down_inv (fun i (st : R * list R) => length (snd st) = length xs /\
     ((i = length xs /\ fst st = nth (length xs - 1) xs 0) \/ ((i < length xs)%nat /\ fst st = nth i (snd st) 0)) /\
     forall k, (i <= k < length xs)%nat -> (forall j, (k <= j < length xs)%nat -> nth j xs 0 <= nth k (snd st) 0) /\
       exists j, (k <= j < length xs)%nat /\ nth k (snd st) 0 = nth j xs 0)
     (length xs) (fun i st => let '(mx, ms) := st in do x <- rd xs i; let mx' := if Rltb mx x then x else mx in
       do ms' <- wr ms i mx'; Some (mx', ms')) (nth (length xs - 1) xs 0, repeat 0 (length xs))) as ([mx ms] & E & L & _ & H).
  - cbn [fst snd]. split; [apply repeat_length|]. split; [now left|]. intros k Hk. lia.
  - intros i [mx ms] Hi (L & Hmx & H). cbn [fst snd] in *. rewrite (rd_nth xs i 0) by lia. cbv zeta.
    set (m' := if Rltb mx (nth i xs 0) then nth i xs 0 else mx).
    destruct (wr_some ms i m' 0) as (ms' & Ew & Lw & Nw); [lia|]. rewrite Ew. exists (m', ms'). split; [reflexivity|].
    cbn [fst snd]. split; [lia|]. split; [right; split; [lia|now rewrite Nw, Nat.eqb_refl]|].
    intros k Hk. rewrite Nw. destruct (Nat.eqb_spec k i) as [->|Ne].
    + assert (Hge : mx <= m' /\ nth i xs 0 <= m').
      { unfold m'. destruct (Rltb mx (nth i xs 0)) eqn:Q; [apply Rltb_true in Q|apply Rltb_false in Q]; lra. }
      split.
      * intros j Hj. destruct (Nat.eq_dec j i) as [->|Nj]; [lra|].
        destruct Hmx as [(Q & Em)|(Q & Em)]; [lia|].
        destruct (H (S i)) as (H1 & _); [lia|]. specialize (H1 j ltac:(lia)). rewrite <- Em in H1. lra.
      * unfold m'. destruct (Rltb mx (nth i xs 0)); [exists i; split; [lia|reflexivity]|].
        destruct Hmx as [(Q & Em)|(Q & Em)].
        -- exists (length xs - 1)%nat. split; [lia|exact Em].
        -- destruct (H (S i)) as (_ & j & Hj & Ej); [lia|]. exists j. split; [lia|congruence].
    + apply H. lia.
  - exists ms. cbn [fst snd] in *. split; [|split; [exact L|]].
    + match goal with |- (do r <- ?X; _) = _ => replace X with (Some (mx, ms)) by (symmetry; exact E) end. reflexivity.
    + intros i Hi. apply H. lia.
Qed.

(** ** One halo *)
Section Find.
Variables (W : R) (c n : nat) (xs ys zs : list R).
Hypothesis (HW : 0 < W) (Hc : (0 < c)%nat) (Hx : length xs = n) (Hy : length ys = n) (Hz : length zs = n).
Hypothesis Hin : forall i, (i < n)%nat -> inb W (nth i xs 0) /\ inb W (nth i ys 0) /\ inb W (nth i zs 0).
Let cw := W / INR c.
Let cf := cellof W c xs ys zs.
Variables (g : Grid) (cap : nat).
Hypothesis (G : grid_ok W c n cf n g) (Ecap : max_length g = Some cap).

Definition d2 (px py pz : R) (j : nat) : R := dist2 W px py pz (nth j xs 0) (nth j ys 0) (nth j zs 0).

(** The candidates met when searching radius r around a point. *)
Definition candidates (px py pz r : R) : list nat :=
  flat_map (fun k => members cf k n)
    (boxcells c (sphere_bounds1 px r cw W) (sphere_bounds1 py r cw W) (sphere_bounds1 pz r cw W)).

Lemma candidates_lt px py pz r j : In j (candidates px py pz r) -> (j < n)%nat.
Proof. unfold candidates. intros H. apply in_flat_map in H. destruct H as (k & _ & H). apply members_In in H. tauto. Qed.

Lemma candidates_NoDup px py pz r : inb W px -> inb W py -> inb W pz -> fits W c r -> NoDup (candidates px py pz r).
Proof.
  intros Ix Iy Iz Hr. unfold candidates. apply NoDup_flat_map'.
  - apply boxcells_NoDup; try (apply visited_NoDup; auto); intros k; apply visited_lt; auto.
  - intros. apply members_NoDup.
  - intros a b x _ _ H1 H2. apply members_In in H1, H2. destruct H1 as (_ & <-), H2 as (_ & <-). reflexivity.
Qed.

Lemma candidates_cover px py pz r rh j : inb W px -> inb W py -> inb W pz -> fits W c r -> 0 <= rh <= r -> (j < n)%nat ->
  d2 px py pz j <= rh * rh -> In j (candidates px py pz r).
Proof.
  intros Ix Iy Iz Hr Hrh Hj Hd. destruct (Hin j Hj) as (Jx & Jy & Jz).
  unfold candidates. apply in_flat_map. exists (cf j). split; [|apply members_In; auto].
  apply boxcells_In. unfold d2, dist2 in Hd. cbv zeta in Hd.
  exists (sl W c (nth j xs 0)), (sl W c (nth j ys 0)), (sl W c (nth j zs 0)). split; [reflexivity|].
  assert (Q : forall u, - rh <= u <= rh -> - r <= u <= r) by (intros; lra).
  split; [|split]; apply visited_covers; auto; apply Q; eapply wrap_diff_abs; [lra| |lra| |lra|].
  - exact Hd.
  - rewrite Rplus_comm, <- Rplus_assoc in Hd. rewrite (Rplus_comm _ (wrap_diff W (py - nth j ys 0) * _)) in Hd. 
    rewrite (Rplus_comm (_ + _)) in Hd || idtac. instantiate (1 := wrap_diff W (px - nth j xs 0)). instantiate (1 := wrap_diff W (pz - nth j zs 0)). lra.
  - instantiate (1 := wrap_diff W (px - nth j xs 0)). instantiate (1 := wrap_diff W (py - nth j ys 0)). lra.
Qed.

Lemma visit_candidates {B} px py pz r (p : nat -> bool) (f : nat -> B) (visit : list nat -> list B -> option (list B)) s :
  inb W px -> inb W py -> inb W pz -> fits W c r ->
  (forall l t, (forall j, In j l -> (j < n)%nat) -> visit l t = Some (t ++ map f (filter p l))) ->
  visit_box g cap (sphere_bounds1 px r cw W) (sphere_bounds1 py r cw W) (sphere_bounds1 pz r cw W) visit s
  = Some (s ++ map f (filter p (candidates px py pz r))).
Proof.
  intros Ix Iy Iz Hr Hv.
  rewrite (visit_box_efold W c Hc n cf g cap _ _ _ visit s G Ecap); try (apply okb_bounds; auto).
  rewrite (efold_append (fun k => map f (filter p (members cf k n)))).
  - unfold candidates. do 2 f_equal. induction (boxcells c _ _ _) as [|k l IH]; [reflexivity|].
    cbn [flat_map]. rewrite IH, filter_app, map_app. reflexivity.
  - intros k t _. apply Hv. intros j Hj. apply members_In in Hj. tauto.
Qed.

(** ** The split finder *)
Lemma add_ok idxs px py pz rh out K : (forall j, In j idxs -> (j < n)%nat) ->
  (length out + length idxs <= K)%nat ->
  add_subhalos xs ys zs idxs px py pz rh W K out
  = Some (out ++ map (fun j => (j, d2 px py pz j)) (filter (fun j => Rleb (d2 px py pz j) (rh * rh)) idxs)).
Proof.
  intros Hl HK. unfold add_subhalos.
  rewrite (fold_opt_efold (fun j out => do sx <- rd xs j; do sy <- rd ys j; do sz <- rd zs j;
    let d := dist2 W px py pz sx sy sz in
    if Rleb d (rh * rh) then (if (length out <? K)%nat then Some (out ++ [(j, d)]) else None) else Some out)).
  revert out HK. induction idxs as [|j idxs IH]; intros out HK; [cbn; now rewrite app_nil_r|].
  assert (Hj : (j < n)%nat) by (apply Hl; now left). cbn [efold filter].
  rewrite (rd_nth xs j 0), (rd_nth ys j 0), (rd_nth zs j 0) by lia. cbv zeta.
  fold (d2 px py pz j). cbn [List.length] in HK.
  destruct (Rleb (d2 px py pz j) (rh * rh)) eqn:E.
  - destruct (Nat.ltb_spec (length out) K); [|lia]. rewrite IH.
    + cbn [map]. now rewrite <- app_assoc.
    + intros; apply Hl; now right.
    + rewrite app_length. cbn [List.length]. lia.
  - apply IH; [intros; apply Hl; now right|lia].
Qed.

Lemma NoDup_lt_length l : NoDup l -> (forall j, In j l -> (j < n)%nat) -> (length l <= n)%nat.
Proof.
  intros N H. rewrite <- (seq_length n 0). apply NoDup_incl_length; [exact N|]. intros j Hj. apply in_seq. specialize (H j Hj). lia.
Qed.

Lemma split_find_ok px py pz rh : inb W px -> inb W py -> inb W pz -> fits W c rh ->
  split_find g xs ys zs px py pz rh
  = Some (map (fun j => (j, d2 px py pz j)) (filter (fun j => Rleb (d2 px py pz j) (rh * rh)) (candidates px py pz rh))).
Proof.
  intros Ix Iy Iz Hf. unfold split_find. rewrite Ecap. cbv zeta.
  rewrite (go_next _ _ _ _ _ _ G), (go_cw _ _ _ _ _ _ G), (go_W _ _ _ _ _ _ G). fold cw.
  match goal with |- visit_box g cap _ _ _ ?v [] = _ => rewrite (visit_box_efold W c Hc n cf g cap _ _ _ v [] G Ecap);
    try (apply okb_bounds; auto) end.
  assert (T : (length (candidates px py pz rh) <= n)%nat).
  { apply NoDup_lt_length; [now apply candidates_NoDup|]. intros j. apply candidates_lt. }
  unfold candidates in *. set (B := boxcells c _ _ _) in *.
  match goal with |- efold ?v B [] = _ =>
  destruct (efold_inv (fun p out => out = map (fun j => (j, d2 px py pz j)) (filter (fun j => Rleb (d2 px py pz j) (rh * rh))
     (flat_map (fun k => members cf k n) p))) v B []) as (out & E & ->) end.
  - reflexivity.
  - intros p k t (q & Eq) ->. rewrite add_ok.
    + eexists. split; [reflexivity|]. rewrite flat_map_app, filter_app, map_app. cbn [flat_map]. rewrite app_nil_r. reflexivity.
    + intros j Hj. apply members_In in Hj. tauto.
    + rewrite map_length. rewrite Eq, flat_map_app in T. cbn [flat_map] in T. rewrite !app_length in T.
      pose proof (filter_length_le (fun j => Rleb (d2 px py pz j) (rh * rh)) (flat_map (fun k0 => members cf k0 n) p)). lia.
  - exact E.
Qed.
(** ** FindSubhalos *)
Variables (rs : list R) (mult : R).
Hypothesis (Hrs : length rs = n) (Hn : (0 < n)%nat) (Hm : 0 < mult).
Hypothesis Hr : forall i, (i < n)%nat -> 0 <= nth i rs 0 /\ 4 * (nth i rs 0 * mult) <= W - cw.
Let rs1 := map (fun r => r * mult) rs.

Lemma rs1_nth i : (i < n)%nat -> nth i rs1 0 = nth i rs 0 * mult.
Proof.
  intros Hi. unfold rs1. rewrite (nth_indep _ 0 (0 * mult)) by (rewrite map_length; lia).
  now rewrite (map_nth (fun r => r * mult)).
Qed.

Lemma rs1_len : length rs1 = n.
Proof. unfold rs1. now rewrite map_length. Qed.

Definition hit (ih j : nat) : bool :=
  ((ih <? j)%nat && Rleb (d2 (nth ih xs 0) (nth ih ys 0) (nth ih zs 0) j) (nth ih rs1 0 * nth ih rs1 0))%bool.

Lemma mark_ok ih idxs subs : (ih < n)%nat -> (forall j, In j idxs -> (j < n)%nat) ->
  mark_subhalos ih idxs xs ys zs rs1 W subs = Some (subs ++ map (fun j => j) (filter (hit ih) idxs)).
Proof.
  intros Hi Hl. pose proof rs1_len. unfold mark_subhalos.
  rewrite (rd_nth xs ih 0), (rd_nth ys ih 0), (rd_nth zs ih 0), (rd_nth rs1 ih 0) by lia.
  rewrite (fold_opt_efold (fun j subs => if (j <=? ih)%nat then Some subs
    else do sx <- rd xs j; do sy <- rd ys j; do sz <- rd zs j; do sr <- rd rs1 j;
         if Rleb (dist2 W (nth ih xs 0) (nth ih ys 0) (nth ih zs 0) sx sy sz) (nth ih rs1 0 * nth ih rs1 0) then Some (subs ++ [j]) else Some subs)).
  apply efold_filter. intros j t Hj. specialize (Hl j Hj). unfold hit.
  rewrite Nat.ltb_antisym. destruct (j <=? ih)%nat; cbn [negb andb]; [reflexivity|].
  rewrite (rd_nth xs j 0), (rd_nth ys j 0), (rd_nth zs j 0), (rd_nth rs1 j 0) by lia.
  unfold d2. destruct (Rleb _ _); reflexivity.
Qed.

Definition row (cm : list R) (ih : nat) : list nat :=
  filter (hit ih) (candidates (nth ih xs 0) (nth ih ys 0) (nth ih zs 0) (nth ih rs1 0 + nth ih cm 0)).

Definition related (i j : nat) : Prop :=
  (i < n)%nat /\ (j < n)%nat /\ i <> j /\
  within W (mult * nth (Nat.min i j) rs 0) (nth i xs 0) (nth i ys 0) (nth i zs 0) (nth j xs 0) (nth j ys 0) (nth j zs 0).

Lemma hit_related i j : (i < j)%nat -> (j < n)%nat -> hit i j = true <-> related i j.
Proof.
  intros Hij Hj. unfold hit, related. rewrite Nat.min_l by lia. rewrite rs1_nth by lia.
  destruct (Nat.ltb_spec i j); [|lia]. cbn [andb].
  destruct (Hin i ltac:(lia)) as (I1 & I2 & I3). destruct (Hin j ltac:(lia)) as (J1 & J2 & J3).
  rewrite (Rmult_comm mult). rewrite <- dist2_within by assumption. unfold d2.
  split.
  - intros E. apply Rleb_true in E. repeat split; try lia. exact E.
  - intros (_ & _ & _ & E). unfold Rleb. destruct (Rle_dec _ _); [reflexivity|contradiction].
Qed.

Lemma row_ok cm i : (i < n)%nat -> 0 <= nth i cm 0 -> 4 * nth i cm 0 <= W - cw ->
  NoDup (row cm i) /\ forall j, In j (row cm i) <-> (i < j)%nat /\ related i j.
Proof.
  intros Hi H0 H1. destruct (Hin i Hi) as (I1 & I2 & I3). destruct (Hr i Hi) as (R0 & R1).
  assert (Rm : 0 <= nth i rs 0 * mult) by (apply Rmult_le_pos; lra).
  assert (F : fits W c (nth i rs1 0 + nth i cm 0)) by (rewrite rs1_nth by assumption; split; fold cw; lra).
  unfold row. split; [apply NoDup_filter, candidates_NoDup; auto|].
  intros j. rewrite filter_In. split.
  - intros (Hc' & Hh). apply candidates_lt in Hc'. assert (Hij : (i < j)%nat).
    { unfold hit in Hh. apply andb_prop in Hh. destruct Hh as (Hh & _). now apply Nat.ltb_lt. }
    split; [exact Hij|]. now apply hit_related.
  - intros (Hij & Hrel). assert (Hj : (j < n)%nat) by apply Hrel. apply hit_related in Hrel; auto. split; [|exact Hrel].
    apply candidates_cover with (rh := nth i rs1 0); auto; [rewrite rs1_nth by assumption; lra|].
    unfold hit in Hrel. apply andb_prop in Hrel. destruct Hrel as (_ & Hrel). now apply Rleb_true in Hrel.
Qed.

Lemma related_sym i j : related i j -> related j i.
Proof.
  intros (H1 & H2 & H3 & a & b & d & H). repeat split; auto. rewrite Nat.min_comm.
  exists (- a)%Z, (- b)%Z, (- d)%Z. rewrite !opp_IZR.
  match goal with |- ?l <= _ => match type of H with ?k <= _ => replace l with k by ring end end. exact H.
Qed.

(** The table of all rows after the marking loop. *)
Lemma mark_loop_ok cm : length cm = n -> (forall i, (i < n)%nat -> 0 <= nth i cm 0 /\ 4 * nth i cm 0 <= W - cw) ->
  loop (length rs1) (fun ih f =>
      do rh <- rd rs1 ih;
      do starts' <- wr (sf_starts f) ih (length (sf_subs f));
      do maxSR <- rd cm ih;
      do x <- rd xs ih; do y <- rd ys ih; do z <- rd zs ih;
      let b p := sphere_bounds1 p (rh + maxSR) (g_cw g) (g_width g) in
      do subs' <- visit_box g cap (b x) (b y) (b z)
          (fun l subs => mark_subhalos ih l xs ys zs rs1 (g_width g) subs) (sf_subs f);
      Some {| sf_starts := starts'; sf_subs := subs' |})
    {| sf_starts := repeat 0%nat (length (g_next g)); sf_subs := [] |}
  = Some (pack (map (row cm) (seq 0 n))).
Proof.
  intros Lc Hcm. rewrite rs1_len, (go_next _ _ _ _ _ _ G), (go_cw _ _ _ _ _ _ G), (go_W _ _ _ _ _ _ G).
  pose proof rs1_len as L1. set (rows := map (row cm) (seq 0 n)).
  assert (Lr : length rows = n) by (unfold rows; now rewrite map_length, seq_length).
  assert (Nr : forall i, (i < n)%nat -> nth i rows [] = row cm i).
  { intros i Hi. unfold rows. rewrite (nth_indep _ [] (row cm 0%nat)) by (rewrite map_length, seq_length; lia).
    rewrite map_nth, seq_nth by lia. reflexivity. }
  match goal with |- loop n ?body ?s0 = _ =>
  destruct (loop_inv (fun i f => length (sf_starts f) = n /\ sf_subs f = concat (firstn i rows) /\
     forall k, (k < i)%nat -> nth k (sf_starts f) 0%nat = off rows k) n body s0) as (f & E & H1 & H2 & H3) end.
  - cbn [sf_starts sf_subs]. split; [apply repeat_length|]. split; [reflexivity|lia].
  - intros i f Hi (H1 & H2 & H3). rewrite (rd_nth rs1 i 0) by lia.
    destruct (wr_some (sf_starts f) i (length (sf_subs f)) 0%nat) as (st & Ew & Lw & Nw); [lia|]. rewrite Ew.
    rewrite (rd_nth cm i 0) by lia. rewrite (rd_nth xs i 0), (rd_nth ys i 0), (rd_nth zs i 0) by lia. cbv zeta.
    destruct (Hin i Hi) as (I1 & I2 & I3). destruct (Hr i Hi) as (R0 & R1). destruct (Hcm i Hi) as (C0 & C1).
    assert (Rm : 0 <= nth i rs 0 * mult) by (apply Rmult_le_pos; lra).
    assert (F : fits W c (nth i rs1 0 + nth i cm 0)) by (rewrite rs1_nth by assumption; split; fold cw; lra).
    fold cw. rewrite (visit_candidates _ _ _ _ (hit i) (fun j => j)); auto.
    2:{ intros l t Hl. now apply mark_ok. }
    eexists. split; [reflexivity|]. cbn [sf_starts sf_subs]. split; [lia|]. split.
    + rewrite map_id, H2. rewrite concat_firstn_S by lia. rewrite Nr by assumption. reflexivity.
    + intros k Hk. rewrite Nw. destruct (Nat.eqb_spec k i) as [->|Ne]; [now rewrite H2|]. apply H3. lia.
  - match goal with |- ?X = _ => replace X with (Some f) by (symmetry; exact E) end. f_equal.
    destruct f as [st sb]. cbn [sf_starts sf_subs] in *. unfold pack. rewrite Lr. f_equal.
    + apply (nth_ext _ _ 0%nat 0%nat); [rewrite map_length, seq_length; exact H1|]. intros k Hk.
      rewrite H1 in Hk. rewrite H3 by assumption. symmetry. now apply nth_map_seq.
    + rewrite H2. rewrite <- Lr at 1. now rewrite firstn_all.
Qed.

Lemma pairs_NoDup rows : (forall i, (i < length rows)%nat -> NoDup (nth i rows [])) -> NoDup (pairs rows).
Proof.
  intros H. unfold pairs. apply NoDup_flat_map'; [apply seq_NoDup| |].
  - intros a Ha. apply in_seq in Ha. apply NoDup_map_in; [apply H; lia|]. intros u v _ _ E. now injection E.
  - intros a b x _ _ Ha Hb. apply in_map_iff in Ha, Hb. destruct Ha as (u & <- & _), Hb as (v & E & _). now injection E.
Qed.

Lemma inv_of_NoDup p s : NoDup p -> NoDup (inv_of p s).
Proof.
  intros H. unfold inv_of. apply NoDup_map_in; [now apply NoDup_filter|].
  intros [a1 a2] [b1 b2] Ha Hb E. apply filter_In in Ha, Hb. destruct Ha as (_ & Ha), Hb as (_ & Hb). cbn in *.
  apply Nat.eqb_eq in Ha, Hb. congruence.
Qed.

Lemma sorted_increasing l : NoDup l -> Sorted le l -> increasing l.
Proof.
  intros N S. apply Sorted_StronglySorted in S; [|intros a b d; lia].
  intros i j. revert i j. induction l as [|a l IH]; intros i j Hij; [cbn in Hij; lia|].
  inversion N as [|a0 l0 Na N']; subst. inversion S as [|a0 l0 S' F]; subst.
  destruct j as [|j]; [lia|]. destruct i as [|i].
  - cbn [nth]. cbn [List.length] in Hij. assert (Hj : In (nth j l 0%nat) l) by (apply nth_In; lia).
    rewrite Forall_forall in F. specialize (F _ Hj). assert (a <> nth j l 0%nat) by congruence. lia.
  - cbn [nth]. apply IH; auto. cbn [List.length] in Hij. lia.
Qed.

Lemma find_ok : exists f, find_subhalos g xs ys zs rs mult = Some (f, rs) /\
  exists rows, f = pack rows /\ length rows = n /\ forall i, (i < n)%nat -> enumerates (nth i rows []) (related i).
Proof.
  unfold find_subhalos. rewrite Ecap. fold rs1. cbv zeta.
  assert (Hne : rs1 <> []) by (intros Q; pose proof rs1_len as L; rewrite Q in L; cbn in L; lia).
  destruct (cumulative_max_ok rs1 Hne) as (cm & Ec & Lc & Hcm). rewrite Ec. rewrite rs1_len in Lc, Hcm.
  assert (Hb : forall i, (i < n)%nat -> 0 <= nth i cm 0 /\ 4 * nth i cm 0 <= W - cw).
  { intros i Hi. destruct (Hcm i Hi) as (_ & j & Hj & Ej). rewrite Ej, rs1_nth by lia. destruct (Hr j ltac:(lia)).
    split; [apply Rmult_le_pos; lra|assumption]. }
  match goal with |- context [loop (length rs1) ?body ?s0] => pose proof (mark_loop_ok cm Lc Hb) as EL; cbv zeta in EL end.
  rewrite EL. clear EL. set (rows := map (row cm) (seq 0 n)).
  assert (Lr : length rows = n) by (unfold rows; now rewrite map_length, seq_length).
  assert (Nr : forall i, (i < n)%nat -> nth i rows [] = row cm i).
  { intros i Hi. unfold rows. rewrite (nth_indep _ [] (row cm 0%nat)) by (rewrite map_length, seq_length; lia).
    rewrite map_nth, seq_nth by lia. reflexivity. }
  assert (Ro : forall i, (i < n)%nat -> NoDup (nth i rows []) /\ forall j, In j (nth i rows []) <-> (i < j)%nat /\ related i j).
  { intros i Hi. rewrite Nr by assumption. destruct (Hb i Hi). now apply row_ok. }
  assert (Hlt : forall h s, (h < length rows)%nat -> In s (nth h rows []) -> (s < length rows)%nat).
  { rewrite Lr. intros h s Hh Hs. apply Ro in Hs; [|assumption]. apply Hs. }
  rewrite cross_match_ok by exact Hlt.
  eexists. split.
  { do 2 f_equal. unfold rs1. rewrite map_map. rewrite <- (map_id rs) at 2. apply map_ext. intros a. field. lra. }
  eexists. split; [reflexivity|]. pose proof (merged_length rows) as Lm. rewrite Lr in Lm.
  split; [rewrite map_length; exact Lm|].
  intros i Hi. change (@nil nat) with (isort []). rewrite map_nth. rewrite merged_nth by (exact Hlt || (rewrite Lr; exact Hi)).
  set (l := inv_of (pairs rows) i ++ nth i rows []).
  assert (Nl : NoDup l).
  { apply NoDup_app'.
    - apply inv_of_NoDup, pairs_NoDup. rewrite Lr. intros k Hk. now apply Ro.
    - now apply Ro.
    - intros a Ha Hb'. apply inv_of_In, pairs_In in Ha. rewrite Lr in Ha. destruct Ha as (Ha1 & Ha2).
      apply Ro in Ha2; [|exact Ha1]. apply Ro in Hb'; [|exact Hi]. lia. }
  split.
  - apply sorted_increasing; [|apply isort_sorted]. eapply Permutation_NoDup; [symmetry; apply isort_perm|exact Nl].
  - intros j. assert (EQ : In j (isort l) <-> In j l) by (split; apply Permutation_in; [|symmetry]; apply isort_perm).
    rewrite EQ. unfold l. rewrite in_app_iff, inv_of_In, pairs_In, Lr. split.
    + intros [(H1 & H2)|H1]; [apply related_sym; now apply Ro|now apply Ro].
    + intros Hrel. destruct (Nat.lt_trichotomy i j) as [Q|[Q|Q]].
      * right. apply Ro; auto.
      * destruct Hrel as (_ & _ & Hne' & _). contradiction.
      * left. assert (Hj : (j < n)%nat) by lia. split; [exact Hj|]. apply Ro; [exact Hj|]. split; [exact Q|]. now apply related_sym.
Qed.

End Find.
