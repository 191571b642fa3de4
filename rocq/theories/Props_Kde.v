(** * Properties C76-C78: kernel density filtering. Floats are reals (see RealBase.v). *)
From Coq Require Import Lra Lia.
From Verif Require Import GoBase GoBaseFacts RealBase LoopBase LoopFacts InterpModel InterpSpec InterpProofs KdeModel KdeSpec KdeSpec2 MatSpec MatProofs RockstarProofs
  KdeProofs KdeProofs2 KdeProofs3 KdeProofs4 KdeProofs5 KdeProofs6.
Import List ListNotations.
Local Open Scope R_scope.

(** ** C76 *)
(** GaussianKDE never panics on three or more grid points between low < high, whatever the points; it is the natural spline through the n evenly
    spaced points whose values are the kernel sums up to the kernels cut off at three widths: never above the sum, below it by at most
    exp(-9) per point, and exact where every point is within three widths. Outside [low, high] the spline panics. *)
Theorem C76_gaussian_kde : forall xs h low high n, (3 <= n)%nat -> low < high -> 0 < h ->
  exists s ys f f1 f2, gaussian_kde xs h low high n = Some s /\ length ys = n /\
    natural_spline (map (even_point low high n) (seq 0 n)) ys f f1 f2 /\
    (forall x, low <= x <= high -> SplineEval s x = Some (f x)) /\ (forall x, ~ (low <= x <= high) -> SplineEval s x = None) /\
    forall i, (i < n)%nat -> f (even_point low high n i) = nth i ys 0 /\
      kde xs h (even_point low high n i) - INR (length xs) * exp (-9) <= nth i ys 0 <= kde xs h (even_point low high n i) /\
      ((forall x, In x xs -> Rabs (even_point low high n i - x) <= 3 * h) -> nth i ys 0 = kde xs h (even_point low high n i)).
Proof.
  intros xs h low high n Hn Hlh Hh. destruct (gaussian_kde_ok xs h low high n Hn Hlh Hh) as (s & ys & f & f1 & f2 & E & Hs & L & H1 & H2 & H3).
  exists s, ys, f, f1, f2. split; [exact E|]. split; [exact L|]. split; [|auto].
  replace (map (even_point low high n) (seq 0 n)) with (kde_grid low high n); [exact Hs|].
  apply (nth_ext _ _ 0 (even_point low high n 0)); [rewrite kde_grid_length, map_length, seq_length; lia|].
  intros i Hi. rewrite kde_grid_length in Hi by lia. rewrite kde_grid_nth by lia. rewrite (map_nth (even_point low high n)), seq_nth by exact Hi. reflexivity.
Qed.
Print Assumptions C76_gaussian_kde.

(** In particular without points the curve is zero at every grid point, and a single point gives a bump of height one at its own place. *)
Example C76_nonvacuous : exists s, gaussian_kde [1] 1 0 2 3 = Some s /\ SplineEval s 1 = Some 1 /\ SplineEval s 0 = Some (exp (-1)).
Proof.
  destruct (C76_gaussian_kde [1] 1 0 2 3 ltac:(lia) ltac:(lra) ltac:(lra)) as (s & ys & f & f1 & f2 & E & L & _ & Hin & _ & H).
  exists s. split; [exact E|].
  assert (G : forall i, (i < 3)%nat -> SplineEval s (INR i) = Some (exp (- ((INR i - 1) / 1) ^ 2))).
  { intros i Hi. assert (Ee : even_point 0 2 3 i = INR i) by (unfold even_point; cbn [Nat.sub INR]; field).
    assert (Hb : 0 <= INR i <= 2) by (split; [apply pos_INR|]; change 2 with (INR 2); apply le_INR; lia).
    destruct (H i Hi) as (A & _ & C). rewrite Ee in *. rewrite (Hin _ Hb). rewrite A, C.
    - unfold kde. cbn [fold_right]. now rewrite Rplus_0_r.
    - intros x [<-|[]]. unfold Rabs. destruct (Rcase_abs _); lra. }
  split.
  - replace (SplineEval s 1) with (SplineEval s (INR 1)) by reflexivity. rewrite (G 1%nat) by lia. f_equal. cbn [INR]. replace (- ((1 - 1) / 1) ^ 2) with 0 by field. apply exp_0.
  - replace (SplineEval s 0) with (SplineEval s (INR 0)) by reflexivity. rewrite (G 0%nat) by lia. f_equal. cbn [INR]. f_equal. field.
Qed.

(** ** C77 *)

Lemma max_unique rs high : rs <> [] -> In high rs -> (forall r, In r rs -> r <= high) -> high = high_of rs.
Proof. intros H0 H1 H2. destruct (high_of_spec rs H0) as [A B]. specialize (H2 _ A). specialize (B _ H1). lra. Qed.

(** NewKDETree panics exactly if there is no point or the density of all points has no peak strictly inside the sampled radii. *)
Theorem C77_panics : forall rs phis splits h, 0 < h ->
  (new_kde_tree [] phis splits h = None) /\
  (valid_points rs phis -> forall high, In high rs -> (forall r, In r rs -> r <= high) ->
     (new_kde_tree rs phis splits h = None <-> exists f, density_curve rs h high f /\ forall i, ~ peak high f i)).
Proof.
  intros rs phis splits h Hh. split; [reflexivity|]. intros Hv high Hhi Hmax. rewrite (max_unique rs high (proj1 Hv) Hhi Hmax).
  destruct (new_tree_spec rs phis splits h Hv Hh) as (f & Hf & [[Hp E]|[Hp (kt & E & Hok)]]); rewrite E.
  - split; [|reflexivity]. intros _. exists f. split; [exact Hf|]. intros i Hi. assert (Hin : In (sample (high_of rs) i) (peak_list (high_of rs) f)) by (apply peak_list_in; eauto).
    rewrite Hp in Hin. destruct Hin.
  - split; [discriminate|]. intros (f' & Hf' & Hno). destruct (to_root _ _ _ _ _ _ Hok f' Hf') as (m & rest & Em & _). exfalso.
    assert (Hin : In m (peak_list (high_of rs) f')) by (rewrite Em; now left). apply peak_list_in in Hin. destruct Hin as (i & Hi & _). now apply (Hno i).
Qed.
Print Assumptions C77_panics.

Lemma filter_first (b : nat -> bool) n : forall s i is, filter b (seq s n) = i :: is -> (s <= i < s + n)%nat /\ b i = true /\ forall k, (s <= k < s + n)%nat -> b k = true -> (i <= k)%nat.
Proof.
  induction n as [|n IH]; intros s i is H; cbn [seq filter] in H; [discriminate|]. destruct (b s) eqn:E.
  - injection H as <- _. split; [lia|]. split; [exact E|]. intros; lia.
  - destruct (IH (S s) i is H) as (H1 & H2 & H3). split; [lia|]. split; [exact H2|]. intros k Hk Hb. destruct (Nat.eq_dec k s) as [->|]; [congruence|]. apply H3; [lia|exact Hb].
Qed.
Lemma peak_iff high g k : (1 <= k < 1 + 98)%nat /\ peakb high g k = true <-> peak high g k.
Proof. unfold peak, peakb. rewrite andb_true_iff, !Rltb_true. intuition lia. Qed.
Lemma first_peak high g m rest : peak_list high g = m :: rest -> exists i, peak high g i /\ m = sample high i /\ forall k, peak high g k -> (i <= k)%nat.
Proof.
  unfold peak_list. remember 98%nat as n eqn:En. intros H. destruct (filter (peakb high g) (seq 1 n)) as [|i is] eqn:E; [discriminate|]. injection H as <- _.
  destruct (filter_first _ _ _ _ _ E) as (H1 & H2 & H3). subst n. exists i. split; [apply peak_iff; auto|]. split; [reflexivity|]. intros k Hk. apply peak_iff in Hk. apply H3; apply Hk.
Qed.

(** Level 0 has one anchor: the first peak of the density of all points. *)
Theorem C77_root : forall rs phis splits h high kt, valid_points rs phis -> 0 < h -> In high rs -> (forall r, In r rs -> r <= high) ->
  new_kde_tree rs phis splits h = Some kt ->
  exists r f g i, anchors kt 0 [r] f /\ density_curve rs h high g /\ peak high g i /\ r = sample high i /\ forall k, peak high g k -> (i <= k)%nat.
Proof.
  intros rs phis splits h high kt Hv Hh Hhi Hmax E. rewrite (max_unique rs high (proj1 Hv) Hhi Hmax).
  destruct (new_tree_spec rs phis splits h Hv Hh) as (g & Hg & [[_ E']|[Hp (kt' & E' & Hok)]]); [congruence|]. assert (kt' = kt) by congruence. subst kt'.
  destruct (tree_anchors _ _ _ _ _ _ 0 Hok ltac:(lia)) as (radii & f & Hanc & Hfin). destruct (to_root _ _ _ _ _ _ Hok g Hg) as (m & rest & Em & H0).
  pose proof (proj1 (proj2 Hanc)) as L. specialize (Hfin O ltac:(cbn; lia)). destruct radii as [|r [|? ?]]; try discriminate. cbn [nth] in Hfin.
  assert (Hrm : r = m). { unfold get_finest in Hfin. cbn [finest_loop Nat.sub] in Hfin. unfold rd in Hfin. rewrite H0 in Hfin. cbn in Hfin. congruence. }
  subst m. exists r, f, g.
  destruct (first_peak _ _ _ _ Em) as (i & Hi & Er & Hmin). exists i. auto.
Qed.
Print Assumptions C77_root.

(** Level l + 1 has 2^(l+1) anchors, one per sector. Each is either a peak of the density of its sector's points that is within one kernel width
    of the anchor of the enclosing sector or of the level's curve at the centre of the sector (on the first level: the peak nearest to the anchor of
    level 0, however far), or, if no peak is that near, the anchor of the enclosing sector. *)
Theorem C77_levels : forall rs phis splits h high kt l, valid_points rs phis -> 0 < h -> In high rs -> (forall r, In r rs -> r <= high) ->
  new_kde_tree rs phis splits h = Some kt -> (S l <= splits)%nat ->
  exists radii f radii' f', anchors kt l radii f /\ anchors kt (S l) radii' f' /\
    forall j, (j < 2 ^ S l)%nat -> exists pts g, sector_points (in_sector (S l) j) rs phis pts /\ density_curve pts h high g /\
      let v := nth j radii' 0 in let p := nth (j / 2) radii 0 in let c := f (centre (S l) j) in
      (exists i, peak high g i /\ v = sample high i /\
         (l = O /\ (forall k, peak high g k -> Rabs (v - p) <= Rabs (sample high k - p)) \/ Rabs (v - p) < h \/ Rabs (v - c) < h)) \/
      (v = p /\ forall i, peak high g i -> l <> O /\ h <= Rabs (sample high i - c)).
Proof.
  intros rs phis splits h high kt l Hv Hh Hhi Hmax E Hl. rewrite (max_unique rs high (proj1 Hv) Hhi Hmax).
  destruct (new_tree_spec rs phis splits h Hv Hh) as (g0 & Hg0 & [[_ E']|[Hp (kt' & E' & Hok)]]); [congruence|]. assert (kt' = kt) by congruence. subst kt'.
  destruct (tree_anchors _ _ _ _ _ _ l Hok ltac:(lia)) as (radii & f & Hanc & Hfin). destruct (tree_anchors _ _ _ _ _ _ (S l) Hok Hl) as (radii' & f' & Hanc' & Hfin').
  exists radii, f, radii', f'. split; [exact Hanc|]. split; [exact Hanc'|]. intros j Hj.
  destruct (to_node _ _ _ _ _ _ Hok (S l) j ltac:(lia) Hj) as (pts & g & e & Hpts & Hg & He & Hnode). exists pts, g. split; [exact Hpts|]. split; [exact Hg|]. cbv zeta.
  pose proof (half_lt j l Hj) as Hhalf. pose proof (Hfin' j Hj) as Fv. pose proof (Hfin (j / 2)%nat Hhalf) as Fp. rewrite finest_step in Fv.
  unfold entry_of in He. unfold rd in Fv. destruct (nth_error (kt_conn kt) (S l)) as [row|] eqn:Erow; [|discriminate]. rewrite He in Fv.
  destruct Hanc as (_ & _ & _ & sp & Esp & Hev). pose proof (centre_range (S l) j Hj) as Hc. specialize (Hev _ Hc).
  unfold node_ok in Hnode. replace (S l - 1)%nat with l in Hnode by lia. destruct e as [v|].
  - injection Fv as <-. destruct Hnode as [Hin Hcase]. apply peak_list_in in Hin. destruct Hin as (i & Hi & Ev). left. exists i. split; [exact Hi|]. split; [exact Ev|].
    destruct Hcase as [(p & Hp' & Hnear & Hd)|(sp' & s & Esp' & Es & Hd)].
    + assert (Hpp : p = nth (j / 2) radii 0).
      { unfold entry_of in Hp'. destruct (nth_error (kt_conn kt) l) as [row'|] eqn:Er'; [|discriminate]. unfold get_finest in Fp.
        change (finest_loop (S l) 0 (kt_conn kt) (j / 2) l) with (match rd (kt_conn kt) (l - 0) with Some row => match rd row (j / 2 / 2 ^ 0)%nat with Some r => match r with Some v => Some v | None => finest_loop l 1 (kt_conn kt) (j / 2) l end | None => None end | None => None end) in Fp.
        rewrite Nat.sub_0_r, Nat.pow_0_r, (Nat.div_1_r (j / 2)) in Fp. unfold rd in Fp. rewrite Er', Hp' in Fp. congruence. }
      subst p. destruct Hd as [Hd|Hd]; [|right; left; exact Hd]. left. split; [lia|]. intros k Hk. apply (proj2 Hnear). apply peak_list_in. eauto.
    + right. right. assert (sp' = sp) by congruence. subst sp'. assert (s = f (centre (S l) j)) by congruence. now subst s.
  - right. destruct Hnode as [Hno Hno']. split; [congruence|]. intros i Hi.
    assert (Hin : In (sample (high_of rs) i) (peak_list (high_of rs) g)) by (apply peak_list_in; eauto).
    destruct (Hno' _ Hin) as (sp' & s & Esp' & Es & Hd). assert (sp' = sp) by congruence. subst sp'. assert (s = f (centre (S l) j)) by congruence. subst s.
    split; [|exact Hd]. intros ->. destruct (proj1 (to_rows _ _ _ _ _ _ Hok)) as (m & Hm).
    assert (Hj2 : (j / 2 = 0)%nat) by (cbn in Hhalf; lia). destruct (Hno m (sample (high_of rs) i)) as [C _]; [unfold entry_of; rewrite Hm, Hj2; reflexivity|exact Hin|]. now apply C.
Qed.
Print Assumptions C77_levels.

(** Two points at radii 1 and 99 give a tree, with any number of levels: its level 0 anchor is the first sample, 0.99. *)
Example C77_nonvacuous : forall splits, valid_points [1; 99] [PI; 1] /\ exists kt f, new_kde_tree [1; 99] [PI; 1] splits (1 / 10) = Some kt /\ anchors kt 0 [99 / 100] f.
Proof.
  intros splits. split; [exact ex_valid|]. destruct (ex_tree splits) as (kt & E & _).
  destruct (C77_root ex_rs ex_phis splits ex_h 99 kt ex_valid ltac:(unfold ex_h; lra) (proj1 ex_high) (proj2 ex_high) E) as (r & f & g & i & Ha & Hg & Hp & Er & Hfirst).
  exists kt, f. split; [exact E|]. specialize (Hfirst 1%nat (ex_peak g Hg)). assert (i = 1%nat) by (destruct Hp as [[? ?] _]; lia). subst i.
  replace (99 / 100) with r; [exact Ha|]. rewrite Er. unfold sample. cbn [Nat.eqb INR]. field.
Qed.


(** ** C78 *)
(** FilterNearby returns the points closer than dr/2 to the level's curve, with their indices, in order; it panics for no points at angles of a turn. *)
Theorem C78_filter_nearby : forall rs0 phis0 splits h kt level rs ths dr, valid_points rs0 phis0 -> 0 < h -> new_kde_tree rs0 phis0 splits h = Some kt -> (level <= splits)%nat ->
  length ths = length rs -> (forall t, In t ths -> 0 <= t <= 2 * PI) ->
  exists radii f idxs, anchors kt level radii f /\ selected (fun i => Rabs (f (nth i ths 0) - nth i rs 0) < dr / 2) (seq 0 (length rs)) idxs /\
    filter_nearby kt rs ths level dr = Some (map (fun i => nth i rs 0) idxs, map (fun i => nth i ths 0) idxs, idxs).
Proof.
  intros rs0 phis0 splits h kt level rs ths dr Hv Hh E Hl HL Ht.
  destruct (new_tree_spec rs0 phis0 splits h Hv Hh) as (g0 & Hg0 & [[_ E']|[_ (kt' & E' & Hok)]]); [congruence|]. assert (kt' = kt) by congruence. subst kt'.
  destruct (tree_anchors _ _ _ _ _ _ level Hok Hl) as (radii & f & Hanc & _). pose proof Hanc as (_ & _ & _ & sp & Esp & Hev).
  exists radii, f, (filter (near f dr rs ths) (seq 0 (length rs))). split; [exact Hanc|]. split; [|now apply (filter_nearby_ok kt sp f)].
  apply selected_filter. intros i _. unfold near. now rewrite Rltb_true.
Qed.
Print Assumptions C78_filter_nearby.

(** A ring buffer as Splashback leaves it (C74): the valid points have positive radii and angles of one turn. *)
Definition filled (ring : RingBuffer) : Prop :=
  length (rb_rs ring) = length (rb_oks ring) /\ length (rb_phis ring) = length (rb_oks ring) /\
  forall r phi, In (r, phi) (ring_points (rb_oks ring) (rb_rs ring) (rb_phis ring)) -> 0 < r /\ 0 <= phi < 2 * PI.

Lemma filter_ring_cases ring levels h : filled ring -> 0 < h ->
  let pts := ring_points (rb_oks ring) (rb_rs ring) (rb_phis ring) in
  (filter_ring ring levels h = None /\ (pts = [] \/ exists k, (k < 10)%nat /\ new_kde_tree (map fst pts) (map snd pts) levels (h * (11 / 10) ^ k) = None /\
      forall j, (j < k)%nat -> attempt pts levels (h * (11 / 10) ^ j) [])) \/
  (exists k kept, (k < 10)%nat /\ attempt pts levels (h * (11 / 10) ^ k) kept /\ (kept <> [] \/ k = 9%nat) /\
      (forall j, (j < k)%nat -> attempt pts levels (h * (11 / 10) ^ j) []) /\
      filter_ring ring levels h = Some (map (fun p => fst p * cos (snd p)) kept, map (fun p => fst p * sin (snd p)) kept)).
Proof.
  intros (L1 & L2 & Hg) Hh pts. unfold filter_ring. rewrite ok_pairs_ring by assumption. fold pts.
  destruct (list_eq_dec (fun a b : R * R => ltac:(decide equality; apply Req_EM_T)) pts []) as [Hnil|Hne].
  - left. rewrite Hnil. split; [reflexivity|now left].
  - destruct (attempts_result pts levels h Hne Hg Hh 10 0 ltac:(lia)) as [(E & k & Hk & Hn & Hj)|(k & kept & E & Hk & Ha & Hnk & Hj)].
    + left. cbv zeta in E. rewrite pow_O in E. rewrite E. split; [reflexivity|]. right. exists k. split; [lia|]. split; [exact Hn|]. intros j Hj'. apply Hj. lia.
    + right. exists k, kept. split; [lia|]. split; [exact Ha|]. split; [destruct Hnk; [now left|right; lia]|]. split; [intros j Hj'; apply Hj; lia|].
      cbv zeta in E. rewrite pow_O in E. rewrite E. apply ring_out.
Qed.

(** If FilterPoints returns, every ring is reduced to the points that the first of up to ten kernel widths h, 1.1h, 1.21h, ... keeps at all (or to what
    the tenth keeps), converted to plane coordinates; and what an attempt keeps is determined. *)
Theorem C78_filter_points : forall rings levels h pxs pys, 0 < h -> (forall ring, In ring rings -> filled ring) -> filter_points rings levels h = Some (pxs, pys) ->
  length pxs = length rings /\ length pys = length rings /\
  forall i ring, nth_error rings i = Some ring -> let pts := ring_points (rb_oks ring) (rb_rs ring) (rb_phis ring) in
    exists k kept, (k < 10)%nat /\ attempt pts levels (h * (11 / 10) ^ k) kept /\ (kept <> [] \/ k = 9%nat) /\
      (forall j, (j < k)%nat -> attempt pts levels (h * (11 / 10) ^ j) []) /\
      (forall j kept', attempt pts levels (h * (11 / 10) ^ j) kept' -> forall kept'', attempt pts levels (h * (11 / 10) ^ j) kept'' -> kept' = kept'') /\
      nth_error pxs i = Some (map (fun p => fst p * cos (snd p)) kept) /\ nth_error pys i = Some (map (fun p => fst p * sin (snd p)) kept).
Proof.
  intros rings levels h pxs pys Hh Hf E. unfold filter_points in E. destruct (mapo (fun r => filter_ring r levels h) rings) as [ps|] eqn:Em; [|discriminate]. injection E as <- <-.
  pose proof (mapo_length _ _ _ Em) as Lp. rewrite !map_length. split; [exact Lp|]. split; [exact Lp|]. intros i ring Hi. cbv zeta.
  assert (Hi' : (i < length ps)%nat) by (rewrite Lp; apply nth_error_Some; congruence).
  destruct (nth_error ps i) as [p|] eqn:Ep; [|apply nth_error_None in Ep; lia]. destruct (mapo_nth _ _ _ _ _ Em Ep) as (a & Ha & Er). assert (a = ring) by congruence. subst a.
  destruct (filter_ring_cases ring levels h (Hf ring (nth_error_In _ _ Hi)) Hh) as [[En _]|(k & kept & Hk & Hat & Hnk & Hj & En)]; [congruence|].
  exists k, kept. split; [exact Hk|]. split; [exact Hat|]. split; [exact Hnk|]. split; [exact Hj|]. split.
  { intros j k1 H1 k2 H2. apply (attempt_unique _ levels (h * (11 / 10) ^ j) k1 k2 (proj2 (proj2 (Hf ring (nth_error_In _ _ Hi)))) H1 H2). }
  rewrite !nth_error_map, Ep. rewrite En in Er. injection Er as <-. split; reflexivity.
Qed.
Print Assumptions C78_filter_points.

(** FilterPoints panics exactly if some ring has no valid point, or one of the attempts it needs has a density without a peak (C77_panics). *)
Theorem C78_panics : forall rings levels h, 0 < h -> (forall ring, In ring rings -> filled ring) ->
  (filter_points rings levels h = None <-> exists ring, In ring rings /\ let pts := ring_points (rb_oks ring) (rb_rs ring) (rb_phis ring) in
     (pts = [] \/ exists k, (k < 10)%nat /\ new_kde_tree (map fst pts) (map snd pts) levels (h * (11 / 10) ^ k) = None /\
        forall j, (j < k)%nat -> attempt pts levels (h * (11 / 10) ^ j) [])).
Proof.
  intros rings levels h Hh Hf. unfold filter_points.
  assert (G : forall ring, In ring rings -> (filter_ring ring levels h = None <-> let pts := ring_points (rb_oks ring) (rb_rs ring) (rb_phis ring) in
     (pts = [] \/ exists k, (k < 10)%nat /\ new_kde_tree (map fst pts) (map snd pts) levels (h * (11 / 10) ^ k) = None /\
        forall j, (j < k)%nat -> attempt pts levels (h * (11 / 10) ^ j) []))).
  { intros ring Hin. destruct (filter_ring_cases ring levels h (Hf ring Hin) Hh) as [[En Hc]|(k & kept & Hk & Hat & Hnk & Hj & En)]; rewrite En; [tauto|].
    split; [discriminate|]. intros [Hnil|(k' & Hk' & Hn & Hj')]; exfalso.
    - cbv zeta in Hnil. destruct Hat as (kt & radii & f & Et & _). rewrite Hnil in Et. discriminate.
    - destruct (Nat.lt_trichotomy k k') as [Hlt|[->|Hlt]].
      + specialize (Hj' k Hlt). pose proof (attempt_unique _ _ _ _ _ (proj2 (proj2 (Hf ring Hin))) Hat Hj') as ->. destruct Hnk as [C| ->]; [now apply C|lia].
      + destruct Hat as (kt & radii & f & Et & _). congruence.
      + destruct (Hj k' Hlt) as (kt & radii & f & Et & _). congruence. }
  clear Hf. induction rings as [|ring rings IH]; cbn [mapo].
  - split; [discriminate|]. intros (? & [] & _).
  - pose proof (G ring (or_introl eq_refl)) as G0. destruct (filter_ring ring levels h) as [p|] eqn:Er.
    + assert (IH' := IH (fun r Hr => G r (or_intror Hr))). destruct (mapo (fun r => filter_ring r levels h) rings) as [ps|].
      * split; [discriminate|]. intros (r & [<-|Hr] & Hb); [apply G0 in Hb; discriminate|]. assert (@None (list (list R) * list (list R)) = None) as _ by reflexivity.
        destruct IH' as [_ IH']. specialize (IH' (ex_intro _ r (conj Hr Hb))). discriminate.
      * split; [|reflexivity]. intros _. destruct (proj1 IH' eq_refl) as (r & Hr & Hb). exists r. split; [now right|exact Hb].
    + split; [|reflexivity]. intros _. exists ring. split; [now left|]. apply G0. reflexivity.
Qed.
Print Assumptions C78_panics.

(** FilterPoints has an ok result, but a ring in which no line of sight found a radius is not reported by it: the call panics. *)
Theorem C109_empty_ring_reported_refuted : ~ (forall rings levels h, 0 < h -> (forall ring, In ring rings -> filled ring) -> filter_points rings levels h <> None).
Proof.
  intros H. apply (H [rb_init 4 256] 3%nat 1); [lra| |reflexivity]. intros ring [<-|[]]. split; [reflexivity|]. split; [reflexivity|]. intros r phi [].
Qed.
Print Assumptions C109_empty_ring_reported_refuted.

(** A ring with three lines of sight, one without a radius: the point on the curve is kept on the first attempt. *)
Definition ex_ring : RingBuffer := mkRB [] [] [] [] [] [1; 5; 99] [PI; 2; 1] [true; false; true] [] [] [] [] 3 0.
Example C78_nonvacuous : filled ex_ring /\ exists pxs pys, filter_points [ex_ring] 0 (1 / 10) = Some (pxs, pys) /\ exists xs, nth_error pxs 0 = Some xs /\ xs <> [].
Proof.
  assert (Hf : filled ex_ring).
  { pose proof PI_RGT_0. pose proof PI2_1. split; [reflexivity|]. split; [reflexivity|]. intros r phi [E|[E|[]]]; injection E as <- <-; lra. }
  split; [exact Hf|]. assert (Hall : forall ring, In ring [ex_ring] -> filled ring) by (intros ring [<-|[]]; exact Hf).
  assert (Hpts : ring_points (rb_oks ex_ring) (rb_rs ex_ring) (rb_phis ex_ring) = [(1, PI); (99, 1)]) by reflexivity.
  destruct (C77_nonvacuous 0) as (_ & kt & f & Et & Ha).
  assert (Hat : exists kept, attempt [(1, PI); (99, 1)] 0 (1 / 10 * (11 / 10) ^ 0) kept /\ kept <> []).
  { assert (Hsel : exists kept, selected (fun p : R * R => Rabs (f (snd p) - fst p) < 1 / 10 / 2) [(99, 1)] kept).
    { destruct (Rlt_dec (Rabs (f 1 - 99)) (1 / 10 / 2)); eexists; [apply sel_in|apply sel_out]; try apply sel_nil; assumption. }
    destruct Hsel as (kept & Hsel). exists ((1, PI) :: kept). split; [|discriminate]. exists kt, [99 / 100], f.
    rewrite pow_O, Rmult_1_r. split; [exact Et|]. split; [exact Ha|]. apply sel_in; [|exact Hsel]. cbn [fst snd].
    destruct Ha as (_ & _ & (f1 & f2 & Hn) & _). assert (Ef : f PI = 99 / 100).
    { apply (ns_table _ _ _ _ _ Hn 1%nat); [cbn; f_equal; unfold wrap_angle; cbn; field|reflexivity]. }
    rewrite Ef. unfold Rabs. destruct (Rcase_abs _); lra. }
  destruct Hat as (kept & Hat & Hne).
  destruct (filter_points [ex_ring] 0 (1 / 10)) as [[pxs pys]|] eqn:E.
  - exists pxs, pys. split; [reflexivity|]. destruct (C78_filter_points [ex_ring] 0%nat (1 / 10) pxs pys ltac:(lra) Hall E) as (_ & _ & H).
    destruct (H O ex_ring eq_refl) as (k & kept' & Hk & Ha' & Hnk & Hj & Hu & Ex & _). rewrite Hpts in *. eexists. split; [exact Ex|].
    destruct k as [|k].
    + rewrite (Hu O kept' Ha' kept Hat). destruct kept; [easy|discriminate].
    + exfalso. apply Hne. apply (Hu O kept Hat []). apply Hj. lia.
  - exfalso. apply C78_panics in E; [|lra|exact Hall]. destruct E as (ring & [<-|[]] & Hc). rewrite Hpts in Hc. destruct Hc as [Hc|(k & Hk & Hn & Hj)]; [discriminate|].
    destruct k as [|k].
    + destruct Hat as (kt' & _ & _ & Et' & _). congruence.
    + apply Hne. assert (Hg : good_points [(1, PI); (99, 1)]) by (rewrite <- Hpts; exact (proj2 (proj2 Hf))). apply (attempt_unique _ _ _ _ _ Hg Hat). apply Hj. lia.
Qed.
