(** * C23, C24: the halo grid and the subhalo finders. *)
From Coq Require Import Lra Lia ZArith List Permutation.
From Verif Require Import ListFacts LoopFacts InterpProofs.
From Verif Require Import GridModel GridSpec GridProofs FinderProofs FinderProofs2 FinderProofs3.
Import ListNotations.
Local Open Scope R_scope.

(** ** C23 *)

Theorem C23_grid_partition : forall W c n xs ys zs,
  0 < W -> (0 < c)%nat -> length xs = n -> length ys = n -> length zs = n ->
  (forall i, (i < n)%nat -> - W <= nth i xs 0 < 2 * W /\ - W <= nth i ys 0 < 2 * W /\ - W <= nth i zs 0 < 2 * W) ->
  exists g cells m,
    insert (new_grid c W n) xs ys zs = Some g /\
    length cells = (c * c * c)%nat /\ total_cells g = (c * c * c)%nat /\
    (* each point is in exactly one cell, once *)
    Permutation (concat cells) (seq 0 n) /\
    (* and that cell contains it *)
    (forall k i, In i (nth k cells []) -> cell_has W c k (nth i xs 0) (nth i ys 0) (nth i zs 0)) /\
    (* MaxLength is the largest length *)
    max_length g = Some m /\ (forall k, (length (nth k cells []) <= m)%nat) /\ (exists k, (k < c * c * c)%nat /\ length (nth k cells []) = m) /\
    (* Length and ReadIndexes with a buffer of MaxLength read the cells *)
    (forall k, (k < c * c * c)%nat ->
      grid_length g (Z.of_nat k) = Some (length (nth k cells [])) /\
      read_indexes g (Z.of_nat k) m = Some (nth k cells [])).
Proof.
  intros W c n xs ys zs HW Hc Hx Hy Hz Hok.
  assert (GP : good_pts W c n xs ys zs) by (constructor; auto).
  destruct (insert_ok W c n xs ys zs GP) as (g & E & G). set (cf := cellof W c xs ys zs) in *.
  destruct (max_length_ok _ _ _ _ _ G) as (m & Em & Hm1 & Hm2).
  set (N := (c * c * c)%nat) in *.
  exists g, (map (fun k => members cf k n) (seq 0 N)), m.
  assert (L : length (map (fun k => members cf k n) (seq 0 N)) = N) by now rewrite map_length, seq_length.
  assert (Nth : forall k, (k < N)%nat -> nth k (map (fun k => members cf k n) (seq 0 N)) [] = members cf k n).
  { intros k Hk. rewrite (nth_indep _ [] (members cf 0%nat n)) by lia.
    rewrite (map_nth (fun k => members cf k n)), seq_nth by lia. reflexivity. }
  assert (Nout : forall k, (N <= k)%nat -> nth k (map (fun k => members cf k n) (seq 0 N)) [] = []) by (intros; apply nth_overflow; lia).
  split; [exact E|]. split; [exact L|]. split; [apply (go_heads _ _ _ _ _ _ G)|]. split; [|split; [|split; [exact Em|split; [|split]]]].
  - apply NoDup_Permutation; [|apply seq_NoDup|].
    + rewrite <- flat_map_concat_map. apply NoDup_flat_map'; [apply seq_NoDup|intros; apply members_NoDup|].
      intros a b x _ _ Ha Hb. apply members_In in Ha, Hb. destruct Ha as (_ & <-), Hb as (_ & <-). reflexivity.
    + intros i. rewrite <- flat_map_concat_map, in_flat_map, in_seq. split.
      * intros (k & _ & H). apply members_In in H. lia.
      * intros H. exists (cf i). split; [apply in_seq; split; [lia|]; apply (cellof_lt W c n); auto; lia|].
        apply members_In. split; [lia|reflexivity].
  - intros k i Hi. destruct (Nat.lt_ge_cases k N) as [Hk|Hk]; [|rewrite Nout in Hi by assumption; destruct Hi].
    rewrite Nth in Hi by assumption. apply members_In in Hi. destruct Hi as (Hi & <-).
    destruct (Hok i Hi) as (O1 & O2 & O3).
    exists (sl W c (nth i xs 0)), (sl W c (nth i ys 0)), (sl W c (nth i zs 0)).
    split; [reflexivity|]. split; [|split]; apply sl_has; auto.
  - intros k. destruct (Nat.lt_ge_cases k N) as [Hk|Hk]; [rewrite Nth by assumption; now apply Hm1|rewrite Nout by assumption; cbn; lia].
  - destruct Hm2 as [->|(k & Hk & Ek)].
    + exists 0%nat. assert (0 < N)%nat by (unfold N; destruct c; [lia|cbn; lia]). split; [assumption|].
      rewrite Nth by assumption. specialize (Hm1 0%nat ltac:(assumption)). lia.
    + exists k. split; [assumption|]. now rewrite Nth.
  - intros k Hk. rewrite Nth by assumption. split.
    + unfold grid_length. now rewrite (cell_list_ok _ _ _ _ _ _ G Hk).
    + now apply (read_indexes_ok _ _ _ _ _ _ _ G).
Qed.
Print Assumptions C23_grid_partition.

(** Three points, one of them outside the box by less than its width, in a grid of 27 cells. *)
Example C23_nonvacuous : let xs := [1; -2; 11] in
  0 < 10 /\ (0 < 3)%nat /\ length xs = 3%nat /\
  (forall i, (i < 3)%nat -> - (10) <= nth i xs 0 < 2 * 10 /\ - (10) <= nth i xs 0 < 2 * 10 /\ - (10) <= nth i xs 0 < 2 * 10).
Proof.
  cbv zeta. split; [lra|]. split; [lia|]. split; [reflexivity|]. intros [|[|[|i]]] H; cbn [nth]; [lra..|lia].
Qed.

(** Inserting a second set of points into the same grid is not supported: one point inserted twice makes the list
    of its cell cyclic, and reading that cell never ends. *)
Theorem C23_second_insert_refuted : exists g g',
  insert (new_grid 1 1 1) [0] [0] [0] = Some g /\ insert g [0] [0] [0] = Some g' /\
  at_ (g_heads g') 0 = Some 0%Z /\ at_ (g_next g') 0 = Some 0%Z /\ cell_list g' 0 = None.
Proof.
  assert (E0 : Rtrunc (0 / (1 / 1)) = 0%Z).
  { replace (0 / (1 / 1)) with 0 by field. unfold Rtrunc. destruct (Rle_dec 0 0); [|lra]. unfold Int_part.
    rewrite <- (tech_up 0 1); [reflexivity|lra|lra]. }
  assert (Ew : wrap1 1 0 = 0).
  { unfold wrap1. destruct (Rleb 1 0) eqn:Q; [apply Rleb_true in Q; lra|].
    destruct (Rltb 0 0) eqn:Q2; [apply Rltb_true in Q2; lra|reflexivity]. }
  assert (S1 : forall h nx, insert {| g_cells := 1; g_cw := 1 / 1; g_width := 1; g_heads := [h]; g_next := [nx] |} [0] [0] [0]
     = Some {| g_cells := 1; g_cw := 1 / 1; g_width := 1; g_heads := [0%Z]; g_next := [h] |}).
  { intros h nx. unfold insert, cell_idx. cbn [length loop rd nth_error]. cbn [g_cells g_cw g_width g_heads g_next].
    rewrite Ew, E0. reflexivity. }
  exists {| g_cells := 1; g_cw := 1 / 1; g_width := 1; g_heads := [0%Z]; g_next := [(-1)%Z] |},
         {| g_cells := 1; g_cw := 1 / 1; g_width := 1; g_heads := [0%Z]; g_next := [0%Z] |}.
  split; [|split; [apply S1|]].
  - unfold new_grid. cbn [Nat.mul Nat.add repeat INR]. apply S1.
  - split; [reflexivity|]. split; reflexivity.
Qed.
Print Assumptions C23_second_insert_refuted.

(** ** C24 *)

Lemma first_above_split i l : increasing l ->
  (first_above i l <= length l)%nat /\
  (forall j, In j (firstn (first_above i l) l) <-> In j l /\ (j <= i)%nat) /\
  (forall j, In j (skipn (first_above i l) l) <-> In j l /\ (i < j)%nat).
Proof.
  induction l as [|a l IH]; intros Hl; cbn [first_above].
  - cbn. split; [lia|]. split; intros j; tauto.
  - assert (Hl' : increasing l). { intros p q Hpq. apply (Hl (S p) (S q)). cbn [List.length]. lia. }
    assert (Ha : forall j, In j l -> (a < j)%nat).
    { intros j Hj. apply (In_nth _ _ 0%nat) in Hj. destruct Hj as (k & Hk & <-). apply (Hl 0%nat (S k)). cbn [List.length]. lia. }
    destruct (Nat.ltb_spec i a) as [Q|Q].
    + cbn. split; [lia|]. split; intros j; [split; [tauto|]|split; [|tauto]].
      * intros ([<-|Hj] & Hle); [lia|]. specialize (Ha j Hj). lia.
      * intros [<-|Hj]; [auto|]. specialize (Ha j Hj). split; [tauto|lia].
    + destruct (IH Hl') as (I1 & I2 & I3). cbn [List.length firstn skipn In]. split; [lia|]. split; intros j.
      * rewrite I2. split; [intros [<-|H]; [auto|tauto]|]. intros ([<-|H] & H2); [tauto|]. right. tauto.
      * rewrite I3. split; [tauto|]. intros ([<-|H] & H2); [lia|tauto].
Qed.

Lemma increasing_firstn k l : increasing l -> increasing (firstn k l).
Proof.
  intros H i j Hij. rewrite firstn_length in Hij.
  assert (E : forall m, (m < k)%nat -> nth m (firstn k l) 0%nat = nth m l 0%nat).
  { clear. intros m. revert k l. induction m as [|m IH]; intros [|k] [|a l] Hm; try lia; try reflexivity. cbn. apply IH. lia. }
  rewrite !E by lia. apply H. lia.
Qed.

Lemma increasing_skipn k l : increasing l -> increasing (skipn k l).
Proof.
  intros H i j Hij. rewrite skipn_length in Hij.
  assert (E : forall m, nth m (skipn k l) 0%nat = nth (k + m) l 0%nat).
  { clear. intros m. revert l. induction k as [|k IH]; intros [|a l]; try reflexivity; [destruct m; reflexivity|]. cbn. apply IH. }
  rewrite !E. apply H. lia.
Qed.

(** For a grid over the catalogue: FindSubhalos succeeds and leaves the radii as they were; Intersects lists exactly the
    linked halos in increasing order; Hosts and Subhalos are those before and those after the halo. *)
Theorem C24_find_subhalos : forall W c n xs ys zs rs mult,
  catalogue W c n xs ys zs -> length rs = n -> (0 < n)%nat -> 0 < mult ->
  (forall i, (i < n)%nat -> 0 <= nth i rs 0 /\ mult * nth i rs 0 <= (W - W / INR c) / 4) ->
  exists g f, insert (new_grid c W n) xs ys zs = Some g /\
    find_subhalos g xs ys zs rs mult = Some (f, rs) /\
    forall i, (i < n)%nat -> exists l h s,
      intersects f i = Some l /\ enumerates l (linked W n xs ys zs rs mult i) /\
      hosts f i = Some h /\ enumerates h (fun j => linked W n xs ys zs rs mult i j /\ (j < i)%nat) /\
      subhalos f i = Some s /\ enumerates s (fun j => linked W n xs ys zs rs mult i j /\ (i < j)%nat) /\
      intersect_count f i = Some (Z.of_nat (length l)) /\ host_count f i = Some (length h) /\
      subhalo_count f i = Some (Z.of_nat (length s)).
Proof.
  intros W c n xs ys zs rs mult [HW Hc Hx Hy Hz Hin] Hrs Hn Hm Hr.
  assert (GP : good_pts W c n xs ys zs).
  { constructor; auto. intros i Hi. destruct (Hin i Hi). unfold ok1. lra. }
  destruct (insert_ok W c n xs ys zs GP) as (g & E & G).
  destruct (max_length_ok _ _ _ _ _ G) as (cap & Ecap & _).
  destruct (find_ok W c n xs ys zs HW Hc Hx Hy Hz Hin g cap G Ecap rs mult Hrs Hn Hm) as (f & Ef & rows & -> & Lr & Hrow).
  { intros i Hi. destruct (Hr i Hi). split; [assumption|]. lra. }
  exists g, (pack rows). split; [exact E|]. split; [exact Ef|]. intros i Hi. specialize (Hrow i Hi). rewrite <- Lr in Hi.
  pose proof (intersects_pack rows i Hi) as EI. set (l := nth i rows []) in *.
  destruct Hrow as (Hinc & Hmem). destruct (first_above_split i l Hinc) as (F1 & F2 & F3).
  set (k := first_above i l) in *.
  assert (EH : host_count (pack rows) i = Some k) by (unfold host_count; rewrite EI; reflexivity).
  assert (EC : intersect_count (pack rows) i = Some (Z.of_nat (length l))) by now apply intersect_count_pack.
  exists l, (firstn k l), (skipn k l).
  split; [exact EI|]. split; [split; [exact Hinc|exact Hmem]|].
  split; [unfold hosts; rewrite EI, EH; unfold sub_slice; destruct (Nat.leb_spec 0 k); [|lia];
          destruct (Nat.leb_spec k (length l)); [|lia]; cbn [andb]; rewrite Nat.sub_0_r; reflexivity|].
  split; [split; [now apply increasing_firstn|]|].
  { intros j. rewrite F2, Hmem. split.
    - intros (H1 & H2). split; [exact H1|]. destruct H1 as (_ & _ & Hne & _). lia.
    - intros (H1 & H2). split; [exact H1|lia]. }
  split; [unfold subhalos; rewrite EI, EH; unfold sub_slice; destruct (Nat.leb_spec k (length l)); [|lia];
          rewrite Nat.leb_refl; cbn [andb]; rewrite firstn_all2 by (rewrite skipn_length; lia); reflexivity|].
  split; [split; [now apply increasing_skipn|]|].
  { intros j. rewrite F3, Hmem. tauto. }
  split; [exact EC|]. split; [rewrite EH; f_equal; rewrite firstn_length; lia|].
  unfold subhalo_count. rewrite EC, EH. f_equal. rewrite skipn_length. lia.
Qed.
Print Assumptions C24_find_subhalos.

(** The relation is symmetric, so j is listed for i exactly when i is listed for j. *)
Theorem C24_symmetric : forall W n xs ys zs rs mult i j,
  linked W n xs ys zs rs mult i j -> linked W n xs ys zs rs mult j i.
Proof. intros. now apply related_sym. Qed.
Print Assumptions C24_symmetric.

(** The split finder: exactly the grid halos whose nearest image is within rh of the target, each once, with the squared
    distance to that image, for targets in the box and search radii up to half of the box less one cell. *)
Theorem C24_split_finder : forall W c n xs ys zs px py pz rh,
  catalogue W c n xs ys zs -> 0 <= px <= W -> 0 <= py <= W -> 0 <= pz <= W ->
  0 <= rh <= (W - W / INR c) / 2 ->
  exists g out, insert (new_grid c W n) xs ys zs = Some g /\ split_find g xs ys zs px py pz rh = Some out /\
    NoDup (map fst out) /\
    (forall j, In j (map fst out) <-> (j < n)%nat /\ within W rh px py pz (nth j xs 0) (nth j ys 0) (nth j zs 0)) /\
    (forall j d, In (j, d) out -> nearest2 W px py pz (nth j xs 0) (nth j ys 0) (nth j zs 0) d).
Proof.
  intros W c n xs ys zs px py pz rh [HW Hc Hx Hy Hz Hin] Px Py Pz Hrh.
  assert (GP : good_pts W c n xs ys zs).
  { constructor; auto. intros i Hi. destruct (Hin i Hi). unfold ok1. lra. }
  destruct (insert_ok W c n xs ys zs GP) as (g & E & G).
  destruct (max_length_ok _ _ _ _ _ G) as (cap & Ecap & _).
  assert (F : fits W c rh) by (split; lra).
  pose proof (split_find_ok W c n xs ys zs HW Hc Hx Hy Hz Hin g cap G Ecap px py pz rh Px Py Pz F) as S.
  exists g. eexists. split; [exact E|]. split; [exact S|]. rewrite map_map. cbn [fst]. rewrite map_id. split; [|split].
  - apply NoDup_filter. now apply candidates_NoDup.
  - intros j. rewrite filter_In. split.
    + intros (Hc' & Hd). apply candidates_lt in Hc'. split; [exact Hc'|]. destruct (Hin j Hc') as (J1 & J2 & J3).
      apply Rleb_true in Hd. apply dist2_within; assumption.
    + intros (Hj & Hw). destruct (Hin j Hj) as (J1 & J2 & J3). apply dist2_within in Hw; try assumption.
      split; [apply candidates_cover with (rh := rh); auto; lra|]. unfold Rleb, d2. destruct (Rle_dec _ _); [reflexivity|contradiction].
  - intros j d Hj. apply in_map_iff in Hj. destruct Hj as (j' & Ej & Hj). injection Ej as -> <-.
    apply filter_In in Hj. destruct Hj as (Hc' & _). apply candidates_lt in Hc'. destruct (Hin j Hc') as (J1 & J2 & J3).
    now apply dist2_nearest.
Qed.
Print Assumptions C24_split_finder.

(** Two halos across the box boundary meet the hypotheses, and they are linked. *)
Example C24_nonvacuous :
  catalogue 100 10 2 [1; 99] [50; 50] [50; 50] /\
  (forall i, (i < 2)%nat -> 0 <= nth i [3; 1] 0 /\ 1 * nth i [3; 1] 0 <= (100 - 100 / INR 10) / 4) /\
  linked 100 2 [1; 99] [50; 50] [50; 50] [3; 1] 1 0 1.
Proof.
  split; [|split].
  - constructor; try (cbn; lia); try lra; try reflexivity. intros [|[|i]] H; cbn [nth]; [lra..|lia].
  - replace (INR 10) with 10 by (cbn; lra). intros [|[|i]] H; cbn [nth]; [lra..|lia].
  - unfold linked. cbn [Nat.min nth]. repeat split; try lia. exists 1%Z, 0%Z, 0%Z. lra.
Qed.

(** The spheres themselves are not compared: the radius of the halo that comes later is ignored. Here the first halo lies
    well inside the sphere of the second, the spheres overlap, and yet neither is listed for the other. *)
Theorem C24_spheres_overlap_refuted : exists W c n xs ys zs rs mult g f,
  catalogue W c n xs ys zs /\ length rs = n /\ 0 < mult /\
  (forall i, (i < n)%nat -> 0 <= nth i rs 0 /\ mult * nth i rs 0 <= (W - W / INR c) / 4) /\
  within W (mult * (nth 0 rs 0 + nth 1 rs 0)) (nth 0 xs 0) (nth 0 ys 0) (nth 0 zs 0) (nth 1 xs 0) (nth 1 ys 0) (nth 1 zs 0) /\
  within W (mult * nth 1 rs 0) (nth 0 xs 0) (nth 0 ys 0) (nth 0 zs 0) (nth 1 xs 0) (nth 1 ys 0) (nth 1 zs 0) /\
  insert (new_grid c W n) xs ys zs = Some g /\ find_subhalos g xs ys zs rs mult = Some (f, rs) /\
  intersects f 0 = Some [] /\ intersects f 1 = Some [].
Proof.
  assert (C : catalogue 100 10 2 [10; 12] [50; 50] [50; 50]).
  { constructor; try (cbn; lia); try lra; try reflexivity. intros [|[|i]] H; cbn [nth]; [lra..|lia]. }
  assert (Hr : forall i, (i < 2)%nat -> 0 <= nth i [1; 5] 0 /\ 1 * nth i [1; 5] 0 <= (100 - 100 / INR 10) / 4).
  { replace (INR 10) with 10 by (cbn; lra). intros [|[|i]] H; cbn [nth]; [lra..|lia]. }
  destruct (C24_find_subhalos 100 10 2 [10; 12] [50; 50] [50; 50] [1; 5] 1 C eq_refl ltac:(lia) ltac:(lra) Hr)
    as (g & f & E1 & E2 & H).
  assert (NL : forall i j, ~ linked 100 2 [10; 12] [50; 50] [50; 50] [1; 5] 1 i j).
  { assert (NL0 : ~ linked 100 2 [10; 12] [50; 50] [50; 50] [1; 5] 1 0 1).
    { intros (_ & _ & _ & a & b & d & Q). cbn [Nat.min nth] in Q.
      assert (Q1 : (10 - 12 + IZR a * 100) ^ 2 <= 1).
      { assert (0 <= (50 - 50 + IZR b * 100) ^ 2) by apply pow2_ge_0. assert (0 <= (50 - 50 + IZR d * 100) ^ 2) by apply pow2_ge_0. lra. }
      assert (Q2 : -1 <= 10 - 12 + IZR a * 100 <= 1) by nra.
      assert (a < 1)%Z by (apply lt_IZR; lra). assert (-1 < a)%Z by (apply lt_IZR; lra). assert (a = 0)%Z by lia. subst a. lra. }
    intros i j Hl. pose proof Hl as (Hi & Hj & Hne & _).
    destruct i as [|[|i]], j as [|[|j]]; try lia; [now apply NL0|]. apply C24_symmetric in Hl. now apply NL0. }
  exists 100, 10%nat, 2%nat, [10; 12], [50; 50], [50; 50], [1; 5], 1, g, f.
  split; [exact C|]. split; [reflexivity|]. split; [lra|]. split; [exact Hr|].
  split; [exists 0%Z, 0%Z, 0%Z; cbn [nth]; lra|]. split; [exists 0%Z, 0%Z, 0%Z; cbn [nth]; lra|].
  split; [exact E1|]. split; [exact E2|].
  split; [destruct (H 0%nat ltac:(lia)) as (l & _ & _ & -> & (_ & Hl) & _)|destruct (H 1%nat ltac:(lia)) as (l & _ & _ & -> & (_ & Hl) & _)];
    (destruct l as [|a l]; [reflexivity|]; exfalso; eapply NL; apply (Hl a); now left).
Qed.
Print Assumptions C24_spheres_overlap_refuted.

(** An empty catalogue makes FindSubhalos panic. *)
Theorem C24_empty_panics_refuted : forall g mult, find_subhalos g [] [] [] [] mult = None.
Proof. intros. unfold find_subhalos. destruct (max_length g); reflexivity. Qed.
Print Assumptions C24_empty_panics_refuted.
