(** * Proofs: the whole tree, FilterNearby, FilterPoints. *)
From Coq Require Import Lra Lia.
From Verif Require Import GoBase GoBaseFacts RealBase LoopBase LoopFacts InterpModel InterpSpec InterpProofs KdeModel KdeSpec MatProofs RockstarProofs RockstarProofs2 KdeSpec2 KdeProofs KdeProofs2 KdeProofs3 Props_Interp.
Import List ListNotations.
Local Open Scope R_scope.

(** ** The largest radius and the sample radii *)
Lemma fold_max_spec l : forall a, let m := fold_left (fun hi r => if Rltb hi r then r else hi) l a in
  (m = a \/ In m l) /\ a <= m /\ forall r, In r l -> r <= m.
Proof.
  induction l as [|r l IH]; intros a; cbv zeta; cbn [fold_left]; [split; [now left|]; split; [lra|intros ? []]|].
  destruct (Rltb a r) eqn:E.
  - apply Rltb_true in E. destruct (IH r) as (H1 & H2 & H3). split; [destruct H1 as [->|]; right; [now left|now right]|]. split; [lra|].
    intros x [->|Hx]; [lra|now apply H3].
  - apply Rltb_false in E. destruct (IH a) as (H1 & H2 & H3). split; [destruct H1 as [->|]; [now left|right; now right]|]. split; [lra|].
    intros x [->|Hx]; [lra|now apply H3].
Qed.

Definition sp_rs (high : R) : list R := map (fun i => 0 + (high - 0) / INR 100 * INR i) (seq 0 99) ++ [high].
Lemma sp_rs_length high : length (sp_rs high) = 100%nat.
Proof. unfold sp_rs. rewrite app_length, map_length, seq_length. reflexivity. Qed.
Lemma INR100 : INR 100 = 100.
Proof. rewrite INR_IZR_INZ. reflexivity. Qed.
Lemma sp_rs_nth high i : (i < 100)%nat -> nth i (sp_rs high) 0 = sample high i.
Proof.
  intros Hi. unfold sp_rs, sample. set (g := fun i => 0 + (high - 0) / INR 100 * INR i). destruct (Nat.eqb_spec i 99) as [->|Hne].
  - rewrite app_nth2; rewrite map_length, seq_length; [|lia]. reflexivity.
  - rewrite app_nth1 by (rewrite map_length, seq_length; lia). rewrite (nth_indep _ 0 (g O)) by (rewrite map_length, seq_length; lia).
    rewrite (map_nth g), seq_nth by lia. unfold g. cbn [Nat.add]. rewrite INR100. field.
Qed.
Lemma sample_range high i : 0 < high -> (i < 100)%nat -> 0 <= sample high i <= high.
Proof.
  intros Hh Hi. unfold sample. destruct (Nat.eqb_spec i 99); [lra|]. pose proof (pos_INR i). assert (INR i <= 100) by (rewrite <- INR100; apply le_INR; lia).
  split; [apply le_div_of; nra|apply div_le_of; nra].
Qed.

(** The radii at the peaks of f, in increasing order. *)
Definition peakb (high : R) (f : R -> R) (i : nat) : bool := Rltb (f (sample high (i + 1))) (f (sample high i)) && Rltb (f (sample high (i - 1))) (f (sample high i)).
Definition peak_list (high : R) (f : R -> R) : list R := map (sample high) (filter (peakb high f) (seq 1 98)).
Lemma peak_list_in high f v : In v (peak_list high f) <-> exists i, peak high f i /\ v = sample high i.
Proof.
  unfold peak_list. rewrite in_map_iff. unfold peak, peakb. split.
  - intros (i & <- & Hi). apply filter_In in Hi. destruct Hi as [Hs Hb]. apply in_seq in Hs. apply andb_true_iff in Hb. destruct Hb as [H1 H2].
    apply Rltb_true in H1. apply Rltb_true in H2. exists i. repeat split; auto; lia.
  - intros (i & (Hi & H1 & H2) & ->). exists i. split; [reflexivity|]. apply filter_In. split; [apply in_seq; lia|]. apply andb_true_iff. split; now apply Rltb_true.
Qed.

Lemma maxes_of_curve sp high f : 0 < high -> (forall x, 0 <= x <= high -> SplineEval sp x = Some (f x)) -> local_spline_maxes (sp_rs high) sp = Some (peak_list high f).
Proof.
  intros Hh Hf. rewrite (local_maxes_ok _ _ f); [|rewrite sp_rs_length; lia|].
  - rewrite sp_rs_length. change (100 - 2)%nat with 98%nat. f_equal. unfold peak_list.
    assert (Ef : filter (is_max f (sp_rs high)) (seq 1 98) = filter (peakb high f) (seq 1 98)).
    { apply filter_ext_in. intros i Hi. apply in_seq in Hi. unfold is_max, peakb. rewrite !sp_rs_nth by lia. now replace (i + 1)%nat with (S i) by lia. }
    rewrite Ef. apply map_ext_in. intros i Hi. apply filter_In in Hi. destruct Hi as [Hi _]. apply in_seq in Hi. apply sp_rs_nth. lia.
  - intros x Hx. apply Hf. apply (In_nth _ _ 0) in Hx. destruct Hx as (i & Hi & <-). rewrite sp_rs_length in Hi. rewrite sp_rs_nth by exact Hi. now apply sample_range.
Qed.

(** ** Growing the tree *)
Lemma density_exists pts h high : 0 < h -> 0 < high -> exists sp f, gaussian_kde pts h 0 high 100 = Some sp /\ forall x, 0 <= x <= high -> SplineEval sp x = Some (f x).
Proof.
  intros Hh Hhi. destruct (gaussian_kde_ok pts h 0 high 100 ltac:(lia) Hhi Hh) as (s & ys & f & f1 & f2 & E & _ & _ & Hev & _). exists s, f. auto.
Qed.

Definition level_ok rs phis h high (l : nat) (sps : list Spline) : Prop :=
  length sps = (2 ^ l)%nat /\ forall j sp, nth_error sps j = Some sp ->
    exists pts f, sector_points (in_sector l j) rs phis pts /\ gaussian_kde pts h 0 high 100 = Some sp /\ forall x, 0 <= x <= high -> SplineEval sp x = Some (f x).

Lemma sector0_all rs phis : length phis = length rs -> (forall p, In p phis -> 0 <= p < 2 * PI) -> sector_points (in_sector 0 0) rs phis rs.
Proof.
  revert phis. induction rs as [|r rs IH]; intros [|p phis] HL Hp; try discriminate; [constructor|]. apply sp_in.
  - unfold in_sector. cbn [Nat.pow INR]. destruct (Hp p (or_introl eq_refl)). rewrite Rmult_0_r. unfold Rdiv. rewrite Rmult_0_l, Rinv_1, !Rmult_1_r. lra.
  - apply IH; [now injection HL|]. intros; apply Hp; now right.
Qed.

Lemma mapo_length {A B} (f : A -> option B) l bs : mapo f l = Some bs -> length bs = length l.
Proof. intros H. apply mapo_spec in H. induction H; cbn; congruence. Qed.
Lemma mapo_nth {A B} (f : A -> option B) l bs i b : mapo f l = Some bs -> nth_error bs i = Some b -> exists a, nth_error l i = Some a /\ f a = Some b.
Proof.
  intros H. apply mapo_spec in H. revert i. induction H as [|x y l l' Hxy H IH]; intros [|i] Hi; try discriminate; [injection Hi as <-; exists x; auto|]. apply IH. exact Hi.
Qed.
Lemma mapo_exists {A B} (f : A -> option B) l : (forall a, In a l -> exists b, f a = Some b) -> exists bs, mapo f l = Some bs.
Proof.
  induction l as [|a l IH]; intros H; [exists []; reflexivity|]. destruct (H a (or_introl eq_refl)) as (b & Eb). destruct IH as (bs & E); [intros; apply H; now right|].
  exists (b :: bs). cbn [mapo]. now rewrite Eb, E.
Qed.

Lemma grow_ok rs phis h high splits sp0 : length phis = length rs -> (forall p, In p phis -> 0 <= p < 2 * PI) -> 0 < h -> 0 < high ->
  gaussian_kde rs h 0 high 100 = Some sp0 ->
  exists sps ths, grow_trees rs phis h 0 high splits [[sp0]] [[PI]] = Some (sps, ths) /\ length sps = S splits /\ length ths = S splits /\
    angles_ok ths (S splits) /\ nth_error sps 0 = Some [sp0] /\ forall l lev, nth_error sps l = Some lev -> level_ok rs phis h high l lev.
Proof.
  intros HL Hp Hh Hhi E0. unfold grow_trees.
  match goal with |- context [loop _ ?b ?s] => set (body := b); set (s0 := s) end.
  destruct (loop_inv (fun k (st : list (list Spline) * list (list R)) => length (fst st) = S k /\ length (snd st) = S k /\ angles_ok (snd st) (S k) /\ nth_error (fst st) 0 = Some [sp0] /\
     forall l lev, nth_error (fst st) l = Some lev -> level_ok rs phis h high l lev) splits body s0) as ([sps ths] & E & L1 & L2 & Ha & H0 & H).
  - cbn [fst snd s0]. split; [reflexivity|]. split; [reflexivity|]. split; [|split; [reflexivity|]].
    + intros [|l] Hl; [|lia]. cbn. unfold level_angles, centre. cbn. do 2 f_equal. field.
    + intros [|l] lev Hl; [|destruct l; discriminate]. injection Hl as <-. split; [reflexivity|]. intros [|j] sp Hj; [|destruct j; discriminate]. injection Hj as <-.
      destruct (density_exists rs h high Hh Hhi) as (s & f & Es & Hf). assert (s = sp0) by congruence. subst s.
      exists rs, f. split; [now apply sector0_all|]. auto.
  - intros k [sps ths] Hk (L1 & L2 & Ha & H0 & H). cbn [fst snd] in *. unfold body.
    destruct (bin_by_theta_ok rs phis (1 + k) HL Hp) as (rb & Eb & Lb & Hb). rewrite Eb.
    destruct (mapo_exists (fun rBin => gaussian_kde rBin h 0 high 100) rb) as (lev & Elev).
    { intros a _. destruct (density_exists a h high Hh Hhi) as (s & f & Es & _). eauto. }
    rewrite Elev. eexists. split; [reflexivity|]. cbn [fst snd]. rewrite !app_length. cbn [length]. split; [lia|]. split; [lia|]. split; [|split].
    + intros l Hl. destruct (Nat.eq_dec l (S k)) as [->|]; [|rewrite nth_error_app1 by lia; apply Ha; lia].
      rewrite nth_error_app2 by lia. rewrite L2, Nat.sub_diag. reflexivity.
    + rewrite nth_error_app1 by lia. exact H0.
    + intros l lev' Hl. destruct (Nat.lt_ge_cases l (length sps)) as [Hlt|Hge]; [rewrite nth_error_app1 in Hl by exact Hlt; now apply H|].
      rewrite nth_error_app2 in Hl by exact Hge. destruct (l - length sps)%nat as [|q] eqn:Eq; [|destruct q; discriminate]. injection Hl as <-.
      replace l with (1 + k)%nat by lia. split; [rewrite (mapo_length _ _ _ Elev); exact Lb|].
      intros j sp Hj. destruct (mapo_nth _ _ _ _ _ Elev Hj) as (pts & Hpts & Epts). destruct (density_exists pts h high Hh Hhi) as (s & f & Es & Hf). assert (s = sp) by congruence. subst s.
      exists pts, f. split; [|auto]. rewrite <- (nth_error_nth _ _ [] Hpts). apply Hb. rewrite <- Lb. apply nth_error_Some. congruence.
  - exists sps, ths. split; [exact E|]. cbn [fst snd] in *. auto.
Qed.

(** ** NewKDETree *)
Definition first_radius (rs : list R) : R := match rs with [] => 0 | r :: _ => r end.
Definition high_of (rs : list R) : R := fold_left (fun hi r => if Rltb hi r then r else hi) rs (first_radius rs).

Lemma high_of_spec rs : rs <> [] -> In (high_of rs) rs /\ forall r, In r rs -> r <= high_of rs.
Proof.
  intros H. destruct rs as [|r0 rs]; [easy|]. unfold high_of. cbn [first_radius].
  destruct (fold_max_spec (r0 :: rs) r0) as (H1 & H2 & H3). split; [destruct H1 as [->|H1]; [now left|exact H1]|exact H3].
Qed.
Lemma high_pos rs phis : valid_points rs phis -> 0 < high_of rs.
Proof. intros (H & _ & Hr & _). apply Hr. now apply high_of_spec. Qed.

Record tree_ok (rs phis : list R) (h high : R) (splits : nat) (kt : KDETree) : Prop := {
  to_h : kt_h kt = h;
  to_angles : angles_ok (kt_ths kt) (S splits);
  to_len : length (kt_conn kt) = S splits;
  to_rows : rows_ok (kt_conn kt);
  to_root : forall f, density_curve rs h high f -> exists m rest, peak_list high f = m :: rest /\ nth_error (kt_conn kt) 0 = Some [Some m];
  to_node : forall l j, (1 <= l <= splits)%nat -> (j < 2 ^ l)%nat -> exists pts f e, sector_points (in_sector l j) rs phis pts /\ density_curve pts h high f /\
     entry_of (kt_conn kt) l j = Some e /\ node_ok (kt_ths kt) (kt_conn kt) h l j (peak_list high f) e }.

Lemma new_tree_spec rs phis splits h : valid_points rs phis -> 0 < h ->
  exists f, density_curve rs h (high_of rs) f /\
    ((peak_list (high_of rs) f = [] /\ new_kde_tree rs phis splits h = None) \/
     (peak_list (high_of rs) f <> [] /\ exists kt, new_kde_tree rs phis splits h = Some kt /\ tree_ok rs phis h (high_of rs) splits kt)).
Proof.
  intros Hv Hh. pose proof (high_pos _ _ Hv) as Hhi. destruct Hv as (Hne & HL & Hpos & Hp).
  assert (Hunf : new_kde_tree rs phis splits h =
    do sp0 <- gaussian_kde rs h 0 (high_of rs) 100;
    do g <- grow_trees rs phis h 0 (high_of rs) splits [[sp0]] [[PI]]; let '(sps, ths) := g in
    do maxes <- mapo (mapo (local_spline_maxes (sp_rs (high_of rs)))) sps;
    do conn <- connect_maxes ths maxes h;
    Some (mkKDE h 0 (high_of rs) sps maxes ths conn (sp_rs (high_of rs)))) by (destruct rs; [easy|reflexivity]).
  rewrite Hunf. clear Hunf.
  set (high := high_of rs) in *.
  destruct (density_exists rs h high Hh Hhi) as (sp0 & f0 & E0 & Hf0). rewrite E0. exists f0. split; [exists sp0; auto|].
  destruct (grow_ok rs phis h high splits sp0 HL Hp Hh Hhi E0) as (sps & ths & Eg & L1 & L2 & Ha & H0 & Hlev). rewrite Eg.
  destruct (mapo_exists (mapo (local_spline_maxes (sp_rs high))) sps) as (maxes & Em).
  { intros lev Hin. apply In_nth_error in Hin. destruct Hin as (l & Hl). destruct (Hlev l lev Hl) as (_ & Hsp). apply mapo_exists. intros sp Hsin.
    apply In_nth_error in Hsin. destruct Hsin as (j & Hj). destruct (Hsp j sp Hj) as (pts & f & _ & _ & Hf). eexists. apply (maxes_of_curve sp high f Hhi Hf). }
  rewrite Em. pose proof (mapo_length _ _ _ Em) as Lm.
  assert (Hm0 : nth_error maxes 0 = Some [peak_list high f0]).
  { destruct (nth_error maxes 0) as [lev|] eqn:E; [|apply nth_error_None in E; lia]. destruct (mapo_nth _ _ _ _ _ Em E) as (a & Ha' & Ea). rewrite H0 in Ha'. injection Ha' as <-.
    cbn [mapo] in Ea. rewrite (maxes_of_curve sp0 high f0 Hhi Hf0) in Ea. congruence. }
  assert (Hlens : forall l lev, nth_error maxes l = Some lev -> length lev = (2 ^ l)%nat).
  { intros l lev Hl. destruct (mapo_nth _ _ _ _ _ Em Hl) as (a & Ha' & Ea). rewrite (mapo_length _ _ _ Ea). apply (Hlev l a Ha'). }
  destruct (peak_list high f0) as [|m0 rest] eqn:Epk.
  - left. split; [reflexivity|]. now rewrite connect_maxes_none.
  - right. split; [easy|]. destruct (connect_maxes_ok ths maxes h m0 rest ltac:(lia) Hlens Hm0 ltac:(intros l Hl; apply Ha; lia)) as (conn & Ec & Lc & Hr & Hc0 & Hn).
    rewrite Ec. eexists. split; [reflexivity|]. constructor; cbn [kt_h kt_ths kt_conn].
    + reflexivity. + exact Ha. + lia. + exact Hr.
    + intros f (sp & Esp & Hf). assert (sp = sp0) by congruence. subst sp. exists m0, rest. split; [|exact Hc0]. rewrite <- Epk.
      unfold peak_list. apply (f_equal (map (sample high))). apply filter_ext_in. intros i Hi. apply in_seq in Hi. unfold peakb.
      assert (Heq : forall k, (k < 100)%nat -> f (sample high k) = f0 (sample high k)).
      { intros k Hk. pose proof (sample_range high k Hhi Hk) as Hs. specialize (Hf _ Hs). specialize (Hf0 _ Hs). congruence. }
      now rewrite !Heq by lia.
    + intros l j Hl Hj. destruct (Hn l j ltac:(lia) Hj) as (e & He & Hok).
      destruct (nth_error maxes l) as [lev|] eqn:El; [|apply nth_error_None in El; lia]. pose proof (Hlens l lev El) as Llev. rewrite (nth_error_nth _ _ [] El) in Hok.
      destruct (mapo_nth _ _ _ _ _ Em El) as (sl & Hsl & Esl). destruct (nth_error lev j) as [ms|] eqn:Ej; [|apply nth_error_None in Ej; lia].
      destruct (mapo_nth _ _ _ _ _ Esl Ej) as (sp & Hsp & Esp). destruct (Hlev l sl Hsl) as (_ & Hs). destruct (Hs j sp Hsp) as (pts & f & Hpts & Ek & Hf).
      rewrite (maxes_of_curve sp high f Hhi Hf) in Esp. injection Esp as <-.
      exists pts, f, e. split; [exact Hpts|]. split; [exists sp; auto|]. split; [exact He|]. rewrite (nth_error_nth _ _ [] Ej) in Hok. exact Hok.
Qed.

(** ** FilterNearby *)
Lemma tree_curve rs phis h high splits kt level : tree_ok rs phis h high splits kt -> (level <= splits)%nat ->
  exists sp f radii, get_rfunc (kt_ths kt) (kt_conn kt) level = Some sp /\ get_conn_maxes (kt_ths kt) (kt_conn kt) level = Some (radii, level_angles level) /\ length radii = (2 ^ level)%nat /\
    filtering_curve radii f /\ forall x, 0 <= x <= 2 * PI -> SplineEval sp x = Some (f x).
Proof.
  intros H Hl. apply get_rfunc_ok; [apply (to_rows _ _ _ _ _ _ H)|rewrite (to_len _ _ _ _ _ _ H); lia|]. rewrite (to_len _ _ _ _ _ _ H). apply (to_angles _ _ _ _ _ _ H).
Qed.

Definition near (f : R -> R) (dr : R) (rs ths : list R) (i : nat) : bool := Rltb (Rabs (f (nth i ths 0) - nth i rs 0)) (dr / 2).
Lemma filter_nearby_ok kt sp f rs ths level dr : get_rfunc (kt_ths kt) (kt_conn kt) level = Some sp ->
  (forall x, 0 <= x <= 2 * PI -> SplineEval sp x = Some (f x)) -> length ths = length rs -> (forall t, In t ths -> 0 <= t <= 2 * PI) ->
  let idxs := filter (near f dr rs ths) (seq 0 (length rs)) in
  filter_nearby kt rs ths level dr = Some (map (fun i => nth i rs 0) idxs, map (fun i => nth i ths 0) idxs, idxs).
Proof.
  intros Esp Hf HL Ht. cbv zeta. unfold filter_nearby. rewrite Esp.
  match goal with |- loop _ ?b ?s = _ => set (body := b); set (s0 := s) end.
  destruct (loop_inv (fun k st => let idxs := filter (near f dr rs ths) (seq 0 k) in st = (map (fun i => nth i rs 0) idxs, map (fun i => nth i ths 0) idxs, idxs)) (length rs) body s0)
    as (st & E & H).
  - reflexivity.
  - intros k st Hk H. cbv zeta in H. subst st. unfold body. rewrite (rd_nth ths k 0), (rd_nth rs k 0) by lia. rewrite Hf by (apply Ht, nth_In; lia).
    eexists. split; [reflexivity|]. cbv zeta. rewrite seq_S, filter_app, !map_app. cbn [Nat.add filter].
    change (Rltb (Rabs (f (nth k ths 0) - nth k rs 0)) (dr / 2)) with (near f dr rs ths k). destruct (near f dr rs ths k); cbn [map]; [reflexivity|now rewrite !app_nil_r].
  - rewrite E. f_equal. exact H.
Qed.

(** ** FilterPoints *)
Lemma ok_pairs_filter oks : forall xs ys, length xs = length oks -> length ys = length oks -> exists l, ok_pairs oks xs ys = Some l /\
  (forall p, In p l -> In (fst p) xs /\ In (snd p) ys) /\ (l = [] <-> forall b, In b oks -> b = false).
Proof.
  induction oks as [|b oks IH]; intros xs ys Lx Ly; [exists []; split; [reflexivity|]; split; [intros ? []|]; split; [intros _ ? []|reflexivity]|].
  destruct xs as [|x xs]; [discriminate|]. destruct ys as [|y ys]; [discriminate|]. cbn [length] in *. cbn [ok_pairs].
  destruct (IH xs ys ltac:(lia) ltac:(lia)) as (l & -> & Hin & Hnil). eexists. split; [reflexivity|]. destruct b.
  - split; [intros p [<-|Hp]; cbn; [auto|]; destruct (Hin p Hp); auto|]. split; [discriminate|]. intros H. specialize (H true (or_introl eq_refl)). discriminate.
  - split; [intros p Hp; destruct (Hin p Hp); cbn; auto|]. rewrite Hnil. split; [intros H b [<-|Hb]; [reflexivity|now apply H]|]. intros H b Hb. apply H. now right.
Qed.
