(** * C129-C132: potential mode *)
From Verif Require Import PotentialModel PotentialSpec PhaseSpec LosSpec LoopFacts RealBase InterpProofs AccumProofs PhaseProofs PotentialProofs.
From Verif Require LosProofs7 Props_Cmd CmdModel RockstarProofs KdeProofs4.
From Verif Require Import GoBase.
From Coq Require Import ZArith Reals List Lia Lra Permutation.
Import List ListNotations.
Local Open Scope R_scope.

(** ** C129: what the cells hold *)

(** Of the particles of a file, those with a random number of at most ParticleFraction and a distance between RMinMult and RMaxMult radii are used.
    Cell j * n + i of the x-y map gains their potential at the point with coordinates (- a_i, - a_j, 0) relative to the halo, where a_0, ..., a_(n-1)
    are equally spaced from - GridRMult to GridRMult radii; similarly for the other two maps.
    Missing: the claim is about the points with the printed coordinates, for which it is false (below). *)
Theorem C129_cells_partial : forall c draw o r (xs : list vec3) ms xy yz xz, (2 <= tc_n c)%nat -> 0 < r -> 0 <= tc_rMin c -> 0 <= tc_rMax c ->
  length ms = length xs -> length xy = (tc_n c * tc_n c)%nat -> length yz = (tc_n c * tc_n c)%nat -> length xz = (tc_n c * tc_n c)%nat ->
  exists xy' yz' xz' used, pot_points c draw (o, r) xs ms (xy, yz, xz) = Some (xy', yz', xz') /\
    length xy' = (tc_n c * tc_n c)%nat /\ length yz' = (tc_n c * tc_n c)%nat /\ length xz' = (tc_n c * tc_n c)%nat /\
    chosen (fun i (p : vec3 * R) => draw i <= tc_frac c /\ r * tc_rMin c <= sqrt (dist2_3 (fst p) o) <= r * tc_rMax c) 0 (combine xs ms) used /\
    mirrored_maps (tc_n c) (r * tc_grid c) o used (fun k => nth k xy' 0 - nth k xy 0) (fun k => nth k yz' 0 - nth k yz 0) (fun k => nth k xz' 0 - nth k xz 0).
Proof.
  intros c draw o r xs ms xy yz xz Hn Hr Hmin Hmax HL L1 L2 L3.
  destruct (pot_points_ok c Hn o r Hr Hmin Hmax draw xs ms (xy, yz, xz) HL) as (((xy', yz'), xz') & u & E & (S1 & S2 & S3) & C1 & G1); [repeat split; assumption|].
  exists xy', yz', xz', u. split; [exact E|]. split; [exact S1|]. split; [exact S2|]. split; [exact S3|]. split; [exact C1|exact G1].
Qed.
Print Assumptions C129_cells_partial.

(** A used particle at (a, b, d) from the centre, with a + b <> 0: the first cell of the x-y map does not hold the potential at the first printed
    coordinates, which are (- G, - G, 0) from the centre. (The particle is at neither of the two corners.) *)
Theorem C129_printed_refuted : forall c draw o r (a b d m hm : R) rs xy yz xz, (2 <= tc_n c)%nat -> 0 < r -> 0 <= tc_rMin c -> 0 <= tc_rMax c -> 0 < tc_grid c ->
  tc_frac c = 1 -> draw 0%nat <= 1 -> m <> 0 -> 0 < hm -> a + b <> 0 -> let x := minus3 o (- a, - b, - d) in
  r * tc_rMin c <= sqrt (dist2_3 x o) <= r * tc_rMax c ->
  let G := r * tc_grid c in d <> 0 \/ (Rabs a <> G /\ Rabs b <> G) ->
  let zero := repeat 0 (tc_n c * tc_n c) in
  (do phis <- pot_points c draw (o, r) [x] [m] (zero, zero, zero); Some (process_potential c phis r hm)) = Some (rs, (xy, yz, xz)) ->
  nth 0 rs 0 = - G /\ nth 0 xy 0 * (hm / r) <> potential (minus3 o (- nth 0 rs 0, - nth 0 rs 0, 0)) [(x, m)].
Proof.
  intros c draw o r a b d m hm rs xy yz xz Hn Hr Hmin Hmax Hg Hf Hd Hm Hhm Hab x Hx G Hoff zero E.
  assert (Lz : length zero = (tc_n c * tc_n c)%nat) by apply repeat_length.
  destruct (C129_cells_partial c draw o r [x] [m] zero zero zero Hn Hr Hmin Hmax eq_refl Lz Lz Lz) as (xy' & yz' & xz' & used & E' & L1 & _ & _ & Hc & Hmaps).
  rewrite E' in E. cbn [process_potential] in E. injection E as E1 E2 E3 E4.
  assert (Hu : used = [(x, m)]). { inversion Hc as [|k p l u Hp Hc'|k p l u Hp Hc']; subst; [inversion Hc'; reflexivity|]. exfalso. apply Hp. rewrite Hf. split; assumption. }
  assert (Hnpos : 2 <= INR (tc_n c)) by (change 2 with (INR 2); now apply le_INR).
  assert (HG : 0 < G) by (apply Rmult_lt_0_compat; assumption).
  assert (Er : nth 0 rs 0 = - G). { rewrite <- E1. destruct (tc_n c) as [|n]; [lia|]. cbn [seq map nth INR]. unfold G. ring. }
  split; [exact Er|]. rewrite Er.
  destruct (Hmaps 0%nat 0%nat ltac:(lia) ltac:(lia)) as (Hv & _ & _). cbn [Nat.mul Nat.add] in Hv. unfold grid_coord in Hv. cbn [INR] in Hv.
  rewrite Hu in Hv. unfold zero in Hv at 1. rewrite nth_repeat in Hv. rewrite Rmult_0_l, Rplus_0_r in Hv. fold G in Hv.
  assert (Ev : nth 0 xy 0 * (hm / r) = nth 0 xy' 0).
  { rewrite <- E2. replace 0 with ((fun p => p / (tc_frac c * hm / r)) 0) at 1 by (cbv beta; unfold Rdiv; ring). rewrite (map_nth (fun p => p / (tc_frac c * hm / r))). rewrite Hf. field. lra. }
  rewrite Ev. rewrite Rminus_0_r in Hv. rewrite Hv. clear - Hm Hab HG Hoff. unfold x, potential, minus3, dist2_3. destruct o as ((ox, oy), oz).
  set (q1 := (_ + _ + _)). set (q2 := (_ + _ + _)).
  assert (P1 : q1 = (a - G) * (a - G) + (b - G) * (b - G) + d * d) by (unfold q1; ring).
  assert (P2 : q2 = (a + G) * (a + G) + (b + G) * (b + G) + d * d) by (unfold q2; ring).
  clearbody q1 q2. pose proof (Rle_0_sqr (a - G)). pose proof (Rle_0_sqr (b - G)). pose proof (Rle_0_sqr (a + G)). pose proof (Rle_0_sqr (b + G)). pose proof (Rle_0_sqr d). unfold Rsqr in *.
  assert (Hpos : 0 < q1 /\ 0 < q2).
  { destruct Hoff as [Hd|(Ha & Hb)].
    - assert (0 < d * d) by (apply Rlt_0_sqr in Hd; exact Hd). lra.
    - assert (a - G <> 0) by (intros Hz; apply Ha; rewrite Rabs_pos_eq; lra). assert (a + G <> 0) by (intros Hz; apply Ha; rewrite Rabs_left; lra).
      apply Rlt_0_sqr in H4. apply Rlt_0_sqr in H5. unfold Rsqr in *. lra. }
  destruct Hpos as (Q1 & Q2). pose proof (sqrt_lt_R0 _ Q1). pose proof (sqrt_lt_R0 _ Q2). intros Heq.
  assert (Hs : sqrt q1 = sqrt q2).
  { assert (Hi : m / sqrt q1 = m / sqrt q2) by lra. apply (f_equal (fun t => t / m)) in Hi.
    replace (m / sqrt q1 / m) with (/ sqrt q1) in Hi by (field; split; lra). replace (m / sqrt q2 / m) with (/ sqrt q2) in Hi by (field; split; lra).
    rewrite <- (Rinv_inv (sqrt q1)), <- (Rinv_inv (sqrt q2)). now rewrite Hi. }
  apply (f_equal Rsqr) in Hs. rewrite !Rsqr_sqrt in Hs by lra. assert (HZ : 4 * G * (a + b) = 0) by lra. apply Rmult_integral in HZ. destruct HZ; lra.
Qed.
Print Assumptions C129_printed_refuted.

Example C129_nonvacuous :
  let c := mkPotConf 3 2 1 5 1 in
  exists xy yz xz, pot_points c (fun _ => 1 / 2) ((10, 10, 10), 1) [(13, 10, 10); (10, 10, 90)] [6; 7] (repeat 0 9, repeat 0 9, repeat 0 9) = Some (xy, yz, xz) /\
    nth (1 * 3 + 1) xy 0 = - 2 /\ nth (1 * 3 + 0) xy 0 = - 6.
Proof.
  cbv zeta. destruct (C129_cells_partial (mkPotConf 3 2 1 5 1) (fun _ => 1 / 2) (10, 10, 10) 1 [(13, 10, 10); (10, 10, 90)] [6; 7] (repeat 0 9) (repeat 0 9) (repeat 0 9))
    as (xy & yz & xz & used & E & _ & _ & _ & Hc & Hm); cbn [tc_n tc_rMin tc_rMax tc_frac length repeat]; try lia; try lra; try reflexivity.
  exists xy, yz, xz. split; [exact E|].
  assert (D1 : sqrt (dist2_3 (13, 10, 10) (10, 10, 10)) = 3). { unfold dist2_3. replace ((13 - 10) * (13 - 10) + (10 - 10) * (10 - 10) + (10 - 10) * (10 - 10)) with (3 * 3) by ring. apply sqrt_square. lra. }
  assert (D2 : sqrt (dist2_3 (10, 10, 90) (10, 10, 10)) = 80). { unfold dist2_3. replace ((10 - 10) * (10 - 10) + (10 - 10) * (10 - 10) + (90 - 10) * (90 - 10)) with (80 * 80) by ring. apply sqrt_square. lra. }
  assert (Hu : used = [((13, 10, 10), 6)]).
  { eapply chosen_fun; [exact Hc|]. cbn [combine]. apply chosen_yes; [cbn [fst tc_frac tc_rMin tc_rMax]; rewrite D1; lra|]. apply chosen_no; [cbn [fst tc_frac tc_rMin tc_rMax]; rewrite D2; lra|constructor]. }
  rewrite Hu in Hm. destruct (Hm 1%nat 1%nat) as (H1 & _); [cbn; lia|cbn; lia|]. destruct (Hm 0%nat 1%nat) as (H2 & _); [cbn; lia|cbn; lia|].
  cbn [tc_n tc_grid Nat.mul Nat.add] in *. unfold grid_coord in *. cbn [INR potential minus3] in *.
  replace (nth 4 (repeat 0 9) 0) with 0 in H1 by reflexivity. replace (nth 3 (repeat 0 9) 0) with 0 in H2 by reflexivity.
  cbn [repeat nth] in H1, H2. split.
  - rewrite Rminus_0_r in H1. rewrite H1. unfold dist2_3.
    match goal with |- context [sqrt ?A] => replace A with (3 * 3) by field end. rewrite sqrt_square by lra. field.
  - rewrite Rminus_0_r in H2. rewrite H2. unfold dist2_3.
    match goal with |- context [sqrt ?A] => replace A with (1 * 1) by field end. rewrite sqrt_square by lra. field.
Qed.

(** ** C130: the rows of a run *)

(** Every line with a snapshot gets radii of n equal steps from - G and the maps (in units of m / r) of the particles chosen from all files of its
    own snapshot, divided by the fraction; lines with snapshot -1 get zeros. Snapshots do not mix, whatever the iteration order of the map. *)
Theorem C130_rows : forall c draw enum read ids snaps (halos : list (vec3 * R * R)),
  (forall l, Permutation (enum l) l) -> length ids = length snaps -> length halos = length snaps -> snaps <> [] ->
  (2 <= tc_n c)%nat -> 0 <= tc_rMin c -> 0 < tc_rMax c -> 0 < tc_frac c -> (forall x r m, In (x, r, m) halos -> 0 < r /\ 0 < m) ->
  (forall i, (i < length snaps)%nat -> nth i snaps 0%Z <> (-1)%Z -> exists files, read (nth i snaps 0%Z) = Some files /\ files <> [] /\
     forall f, In f files -> pfile_ok f /\ let '(o, r, _) := nth i halos (0, 0, 0, 0, 0) in forall x, In x (f_xs f) -> sqrt (dist2_3 x o) <> r * tc_rMax c) ->
  exists rows, potential_maps c draw enum read ids snaps halos = Some rows /\ length rows = length snaps /\
    forall i, (i < length snaps)%nat -> exists rs xy yz xz, nth_error rows i = Some (rs, (xy, yz, xz)) /\
      length rs = tc_n c /\ length xy = (tc_n c * tc_n c)%nat /\ length yz = (tc_n c * tc_n c)%nat /\ length xz = (tc_n c * tc_n c)%nat /\
      let '(o, r, m) := nth i halos (0, 0, 0, 0, 0) in
      (forall k, (k < tc_n c)%nat -> nth k rs 0 = - (r * tc_grid c) + INR k * (2 * (r * tc_grid c) / INR (tc_n c))) /\
      (nth i snaps 0%Z = (-1)%Z -> forall k, nth k xy 0 = 0 /\ nth k yz 0 = 0 /\ nth k xz 0 = 0) /\
      (nth i snaps 0%Z <> (-1)%Z -> forall files, read (nth i snaps 0%Z) = Some files ->
         exists j uses, length uses = length files /\
           (forall k f, nth_error files k = Some f ->
              chosen (fun a (p : vec3 * R) => draw (nth i snaps 0%Z) k j a <= tc_frac c /\ r * tc_rMin c <= sqrt (dist2_3 (fst p) o) <= r * tc_rMax c) 0
                (combine (f_xs f) (f_ms f)) (nth k uses [])) /\
           let scaled := fun l k => nth k l 0 * (tc_frac c * (m / r)) in
           mirrored_maps (tc_n c) (r * tc_grid c) o (concat uses) (scaled xy) (scaled yz) (scaled xz)).
Proof.
  intros c draw enum read ids snaps halos Hen Li Lh Hne Hn Hmin Hmax Hfr Hh Hfiles. unfold potential_maps. cbv zeta.
  set (dh := ((0, 0, 0, 0, 0) : vec3 * R * R)) in *. set (g := fun h : vec3 * R * R => (fst (fst h), snd (fst h))). set (spheres := map g halos). set (ds := g dh).
  assert (Ls : length spheres = length snaps) by (unfold spheres; rewrite map_length; exact Lh).
  assert (Hs : forall i, nth i spheres ds = g (nth i halos dh)) by (intros; apply map_nth).
  set (zero := repeat 0 (tc_n c * tc_n c)). assert (Lz : length zero = (tc_n c * tc_n c)%nat) by apply repeat_length.
  assert (Sz : sized c (zero, zero, zero)) by (repeat split; exact Lz).
  assert (Hpos : forall i, (i < length snaps)%nat -> 0 < snd (nth i spheres ds)).
  { intros i Hi. rewrite Hs. assert (Hin : In (nth i halos dh) halos) by (apply nth_In; lia). destruct (nth i halos dh) as ((x, r), m). destruct (Hh _ _ _ Hin) as (H1 & _). exact H1. }
  assert (HOK : forall i, (i < length snaps)%nat -> nth i snaps 0%Z <> (-1)%Z -> exists files, read (nth i snaps 0%Z) = Some files /\ files <> [] /\ forall f, In f files -> tOK c (nth i spheres ds) f).
  { intros i Hi Hsn. destruct (Hfiles i Hi Hsn) as (files & Er & Hnf & Hf). exists files. split; [exact Er|]. split; [exact Hnf|]. intros f Hin. destruct (Hf f Hin) as (A & B).
    split; [exact (Hpos i Hi)|]. split; [exact A|]. rewrite Hs. unfold g. destruct (nth i halos dh) as ((x, r), m). exact B. }
  destruct (accum_run_ok (pot_meets c) (pot_insert c draw) ([], [], []) ds (sized c) (tOK c) (fun snap fi j s f a => pot_insert_ok c Hn Hmin Hmax draw snap fi j s f a)
    enum read ids snaps spheres (zero, zero, zero) Hen Li Ls Hne Sz HOK) as (sets & E & Lsets & Isets & Hsets).
  rewrite E.
  assert (Hrow : forall i, In i (seq 0 (length ids)) -> exists b, (do h <- rd halos i; do phis <- rd sets i; Some (process_potential c phis (snd (fst h)) (snd h))) = Some b).
  { intros i Hi. apply in_seq in Hi. rewrite (rd_nth halos i dh), (rd_nth sets i ([], [], [])) by lia. eauto. }
  destruct (LosProofs7.mapo_spec _ _ Hrow) as (rows & Erows & Lrows & Hrows). exists rows. split; [exact Erows|]. rewrite seq_length in Lrows. split; [congruence|].
  intros i Hi. destruct (Hrows i i) as (b & Eb & Epb); [rewrite (nth_error_nth' _ 0%nat) by (rewrite seq_length; lia); f_equal; apply seq_nth; lia|].
  rewrite (rd_nth halos i dh), (rd_nth sets i ([], [], [])) in Epb by lia. injection Epb as <-.
  pose proof (Isets i Hi) as Hsz. destruct (Hsets i Hi) as (Hm1 & Hm2). pose proof (Hs i) as Hsi. pose proof (HOK i Hi) as HOKi. assert (Hin : In (nth i halos dh) halos) by (apply nth_In; lia).
  set (sp := nth i spheres ds) in *. destruct (nth i sets ([], [], [])) as ((xy, yz), xz). destruct Hsz as (L1 & L2 & L3).
  destruct (nth i halos dh) as ((o, r), m). destruct (Hh _ _ _ Hin) as (Hr & Hm). cbn [process_potential fst snd] in Eb. unfold g in Hsi. cbn [fst snd] in Hsi. rewrite Hsi in *.
  assert (Hnpos : 2 <= INR (tc_n c)) by (change 2 with (INR 2); now apply le_INR).
  set (sc := fun p => p / (tc_frac c * m / r)) in *.
  assert (Esc : forall l k, nth k (map sc l) 0 = sc (nth k l 0)). { intros l k. replace 0 with (sc 0) at 1 by (unfold sc, Rdiv; ring). apply map_nth. }
  eexists _, _, _, _. split; [exact Eb|]. rewrite !map_length, seq_length. split; [reflexivity|]. split; [exact L1|]. split; [exact L2|]. split; [exact L3|]. split; [|split].
  - intros k Hk. erewrite nth_error_nth; [|rewrite nth_error_map, (nth_error_nth' _ 0%nat) by (rewrite seq_length; exact Hk); cbn [option_map]; rewrite seq_nth by exact Hk; reflexivity].
    cbn [Nat.add]. field. lra.
  - intros Hsn k. specialize (Hm1 Hsn). injection Hm1 as -> -> ->. rewrite !Esc. unfold zero. rewrite nth_repeat. unfold sc, Rdiv. rewrite Rmult_0_l. auto.
  - intros Hsn files Er. destruct (Hm2 Hsn files Er) as (j & Ef). destruct (HOKi Hsn) as (files' & Er' & _ & HF). rewrite Er in Er'. injection Er' as <-.
    destruct (row_fold_pot c Hn Hmin Hmax draw (nth i snaps 0%Z) j (o, r) files 0 (zero, zero, zero) HF Sz) as (p & uses & Ep & _ & Lu & Hc & Hg).
    rewrite Ef in Ep. injection Ep as <-. exists j, uses. split; [exact Lu|]. split; [exact Hc|]. cbv zeta. intros i' j' Hi' Hj'. specialize (Hg i' j' Hi' Hj').
    cbv zeta in Hg |- *. cbn [fst snd] in Hg. unfold at_xy, at_yz, at_xz in Hg. cbn [fst snd] in Hg. unfold zero in Hg. rewrite nth_repeat, !Rminus_0_r in Hg. rewrite !Esc.
    destruct Hg as (G1 & G2 & G3). rewrite <- G1, <- G2, <- G3. unfold sc. repeat split; field; lra.
Qed.
Print Assumptions C130_rows.

(** With ParticleFraction = 1 every particle in reach is used, whatever the random numbers (which are less than 1). *)
Theorem C130_all_used : forall (P : vec3 * R -> Prop) frac (draw : nat -> nat -> R) (files : list (list (vec3 * R))) uses, 1 <= frac -> (forall k a, 0 <= draw k a < 1) ->
  length uses = length files -> (forall k f, nth_error files k = Some f -> chosen (fun a p => draw k a <= frac /\ P p) 0 f (nth k uses [])) ->
  chosen (fun _ p => P p) 0 (concat files) (concat uses).
Proof.
  intros P frac draw files uses Hf Hd. revert draw Hd uses. induction files as [|f files IH]; intros draw Hd uses HL Hc; destruct uses as [|u uses]; try discriminate; [constructor|].
  cbn [concat]. apply chosen_app.
  - specialize (Hc 0%nat f eq_refl). cbn [nth] in Hc. apply (chosen_ext _ (fun _ p => P p) f 0 0) in Hc; [exact Hc|]. intros i a _. pose proof (Hd 0%nat (0 + i)%nat). split; [tauto|intros Hp; split; [lra|exact Hp]].
  - cbn [Nat.add]. apply (chosen_ext (fun _ p => P p) (fun _ p => P p) (concat files) 0 (length f)); [tauto|]. apply (IH (fun k => draw (S k))); [intros; apply Hd|cbn [length] in HL; lia|].
    intros k f' Hk. apply (Hc (S k) f' Hk).
Qed.
Print Assumptions C130_all_used.

(** Two lines, one without a snapshot; two files. *)
Example C130_nonvacuous :
  let c := mkPotConf 3 2 1 5 1 in let fl := fun x => mkPFile (0, 0, 0) (100, 100, 100) 100 0 [(x, 10, 10)] [6] in
  exists rows, potential_maps c (fun _ _ _ _ => 1 / 2) (fun l => l) (fun _ => Some [fl 13; fl 60]) [8; 9]%Z [3; -1]%Z [((10, 10, 10), 1, 2); ((10, 10, 10), 1, 2)] = Some rows /\
    exists rs xy yz xz, nth_error rows 0 = Some (rs, (xy, yz, xz)) /\ nth 4 xy 0 = - 1 /\ nth 2 rs 0 = 2 / 3.
Proof.
  cbv zeta. set (c := mkPotConf 3 2 1 5 1). set (fl := fun x => mkPFile (0, 0, 0) (100, 100, 100) 100 0 [(x, 10, 10)] [6]).
  assert (D1 : sqrt (dist2_3 (13, 10, 10) (10, 10, 10)) = 3). { unfold dist2_3. replace ((13 - 10) * (13 - 10) + (10 - 10) * (10 - 10) + (10 - 10) * (10 - 10)) with (3 * 3) by ring. apply sqrt_square. lra. }
  assert (D2 : sqrt (dist2_3 (60, 10, 10) (10, 10, 10)) = 50). { unfold dist2_3. replace ((60 - 10) * (60 - 10) + (10 - 10) * (10 - 10) + (10 - 10) * (10 - 10)) with (50 * 50) by ring. apply sqrt_square. lra. }
  destruct (C130_rows c (fun _ _ _ _ => 1 / 2) (fun l => l) (fun _ => Some [fl 13; fl 60]) [8; 9]%Z [3; -1]%Z [((10, 10, 10), 1, 2); ((10, 10, 10), 1, 2)]) as (rows & E & _ & H);
    try reflexivity; try discriminate; cbn [tc_n tc_rMin tc_rMax tc_frac c]; try lia; try lra.
  { intros x r m [[= <- <- <-]|[[= <- <- <-]|[]]]; lra. }
  { intros i Hi _. exists [fl 13; fl 60]. split; [reflexivity|]. split; [discriminate|]. assert (Ei : nth i [((10, 10, 10), 1, 2); ((10, 10, 10), 1, 2)] (0, 0, 0, 0, 0) = ((10, 10, 10), 1, 2)) by (cbn [length] in Hi; destruct i as [|[|?]]; [reflexivity|reflexivity|lia]). rewrite Ei.
    intros f [<-|[<-|[]]]; (split; [split; [reflexivity|constructor; [cbn; lra|constructor]]|]); intros x [<-|[]]; [rewrite D1|rewrite D2]; lra. }
  exists rows. split; [exact E|]. destruct (H 0%nat ltac:(cbn; lia)) as (rs & xy & yz & xz & En & _ & _ & _ & _ & Hrs & _ & Hv). exists rs, xy, yz, xz. split; [exact En|].
  cbn [nth] in Hv, Hrs. destruct (Hv ltac:(discriminate) [fl 13; fl 60] eq_refl) as (j & uses & Lu & Hc & Hm).
  destruct uses as [|u1 [|u2 [|? ?]]]; try discriminate. pose proof (Hc 0%nat _ eq_refl) as Hc1. pose proof (Hc 1%nat _ eq_refl) as Hc2. cbn [nth fl f_xs f_ms combine] in Hc1, Hc2.
  assert (U1 : u1 = [((13, 10, 10), 6)]). { eapply chosen_fun; [exact Hc1|]. apply chosen_yes; [|constructor]. cbn [fst tc_frac tc_rMin tc_rMax c]. rewrite D1. lra. }
  assert (U2 : u2 = []). { eapply chosen_fun; [exact Hc2|]. apply chosen_no; [|constructor]. cbn [fst tc_frac tc_rMin tc_rMax c]. rewrite D2. lra. }
  subst u1 u2. split.
  - destruct (Hm 1%nat 1%nat) as (H1 & _); [cbn; lia|cbn; lia|]. cbn [tc_n tc_grid tc_frac c Nat.mul Nat.add concat app potential minus3] in H1. unfold grid_coord, dist2_3 in H1. cbn [INR] in H1.
    match type of H1 with context [sqrt ?A] => replace A with (3 * 3) in H1 by field end. rewrite sqrt_square in H1 by lra. lra.
  - rewrite (Hrs 2%nat) by (cbn; lia). cbn [tc_n tc_grid c INR]. field.
Qed.

(** ** C131: the header *)

(** Output column 2 + x (after ID and snapshot) holds the radii first, then the maps of the x-y, y-z and x-z planes ... *)
Theorem C131_layout : forall n rows, rows <> [] ->
  (forall rs xy yz xz, In (rs, (xy, yz, xz)) rows -> length rs = n /\ length xy = (n * n)%nat /\ length yz = (n * n)%nat /\ length xz = (n * n)%nat) ->
  exists cols, potential_columns rows = Some cols /\ length cols = (n + 3 * (n * n))%nat /\
    forall i rs xy yz xz, nth_error rows i = Some (rs, (xy, yz, xz)) -> forall x,
      ((x < n)%nat -> nth i (nth x cols []) 0 = nth x rs 0) /\
      ((x < n * n)%nat -> nth i (nth (n + x) cols []) 0 = nth x xy 0 /\ nth i (nth (n + n * n + x) cols []) 0 = nth x yz 0 /\
                          nth i (nth (n + n * n + n * n + x) cols []) 0 = nth x xz 0).
Proof.
  intros n rows Hne Hrow.
  assert (Hlen : forall (f : list R * maps -> list R) w, (forall r, In r rows -> length (f r) = w) -> exists t, CmdModel.transpose 0 (map f rows) = Some t /\ length t = w /\
    forall i r x, nth_error rows i = Some r -> (x < w)%nat -> nth i (nth x t []) 0 = nth x (f r) 0).
  { intros f w Hf. destruct (Props_Cmd.C62_transpose R 0 (map f rows) w) as (t & E & Lt & _ & H & _).
    - destruct rows; [congruence|discriminate]. - rewrite Forall_forall. intros l Hl. apply in_map_iff in Hl. destruct Hl as (r & <- & Hr). now apply Hf.
    - exists t. split; [exact E|]. split; [exact Lt|]. intros i r x Hr Hx. destruct (H x i (nth x (f r) 0)) as (H1 & _).
      destruct H1 as (col & Ec & En). { exists (f r). split; [rewrite nth_error_map; change maps with (list R * list R * list R)%type in *; now rewrite Hr|]. apply nth_error_nth'. rewrite (Hf r); [exact Hx|]. now apply nth_error_In in Hr. }
      rewrite (nth_error_nth _ _ [] Ec). exact (nth_error_nth _ _ 0 En). }
  destruct (Hlen (fun r => fst r) n) as (t1 & E1 & L1 & H1); [intros (a, ((b, d), e)) Hr; apply (Hrow a b d e Hr)|].
  destruct (Hlen (fun r => fst (fst (snd r))) (n * n)%nat) as (t2 & E2 & L2 & H2); [intros (a, ((b, d), e)) Hr; apply (Hrow a b d e Hr)|].
  destruct (Hlen (fun r => snd (fst (snd r))) (n * n)%nat) as (t3 & E3 & L3 & H3); [intros (a, ((b, d), e)) Hr; apply (Hrow a b d e Hr)|].
  destruct (Hlen (fun r => snd (snd r)) (n * n)%nat) as (t4 & E4 & L4 & H4); [intros (a, ((b, d), e)) Hr; apply (Hrow a b d e Hr)|].
  unfold potential_columns. rewrite E1, E2, E3, E4. eexists. split; [reflexivity|]. rewrite !app_length, L1, L2, L3, L4. split; [lia|].
  set (nn := (n * n)%nat) in *. clearbody nn. intros i rs xy yz xz Hr x. split; [|intros Hx; split; [|split]].
  - intros Hx. rewrite !app_nth1 by (rewrite ?app_length; lia). exact (H1 i _ x Hr Hx).
  - rewrite (app_nth1 ((t1 ++ t2) ++ t3)) by (rewrite !app_length; lia). rewrite (app_nth1 (t1 ++ t2)) by (rewrite !app_length; lia).
    rewrite app_nth2 by lia. rewrite L1. replace (n + x - n)%nat with x by lia. exact (H2 i _ x Hr Hx).
  - rewrite (app_nth1 ((t1 ++ t2) ++ t3)) by (rewrite !app_length; lia). rewrite app_nth2 by (rewrite app_length; lia). rewrite app_length, L1, L2.
    replace (n + nn + x - (n + nn))%nat with x by lia. exact (H3 i _ x Hr Hx).
  - rewrite app_nth2 by (rewrite !app_length; lia). rewrite !app_length, L1, L2, L3. replace (n + nn + nn + x - (n + nn + nn))%nat with x by lia. exact (H4 i _ x Hr Hx).
Qed.
Print Assumptions C131_layout.

(** ... and that is what the header says. *)
Theorem C131_header : forall c, (1 < tc_n c)%nat -> let n := Z.of_nat (tc_n c) in
  potential_header c = Some (lit "# Column contents: ID(0) Snapshot(1) R [cMpc/h](2-" ++ itoa (2 + n - 1) ++ lit ") Phi_xy/(G Mvir / Rvir)(" ++ itoa (2 + n) ++ lit "-" ++ itoa (2 + n + n * n - 1) ++
    lit ") Phi_yz/(G Mvir / Rvir)(" ++ itoa (2 + n + n * n) ++ lit "-" ++ itoa (2 + n + n * n + n * n - 1) ++
    lit ") Phi_xz/(G Mvir / Rvir)(" ++ itoa (2 + n + n * n + n * n) ++ lit "-" ++ itoa (2 + n + n * n + n * n + n * n - 1) ++ lit ")").
Proof.
  intros c Hn n. unfold potential_header, CatalogModel.CommentString. fold n. cbv zeta. assert (1 < n)%Z by (unfold n; lia). assert (1 < n * n)%Z by nia. set (q := (n * n)%Z) in *. clearbody n q. clear c Hn.
  change (CatalogModel.orderNames _ _ _) with (Some [(lit "ID", 1); (lit "Snapshot", 1); (lit "R [cMpc/h]", n); (lit "Phi_xy/(G Mvir / Rvir)", q); (lit "Phi_yz/(G Mvir / Rvir)", q); (lit "Phi_xz/(G Mvir / Rvir)", q)]%Z).
  cbn [option_map].
  f_equal. cbn [CatalogModel.labelCols Z.eqb]. change ((1 =? 1)%Z) with true. cbv iota.
  destruct (Z.eqb_spec n 1) as [?|_]; [lia|]. destruct (Z.eqb_spec q 1) as [?|_]; [lia|].
  change (0 + 1 + 1)%Z with 2%Z.
  set (a := itoa (2 + n - 1)). set (b := itoa (2 + n)). set (d := itoa (2 + n + q - 1)). set (e := itoa (2 + n + q)). set (f := itoa (2 + n + q + q - 1)). set (g := itoa (2 + n + q + q)). set (h := itoa (2 + n + q + q + q - 1)). clearbody a b d e f g h.
  change (itoa 0) with (lit "0"). change (itoa (0 + 1)) with (lit "1"). change (itoa 2) with (lit "2").
  cbn [join lit]. repeat rewrite <- app_assoc. cbn [app]. repeat rewrite <- app_assoc. cbn [app]. reflexivity.
Qed.
Print Assumptions C131_header.

Example C131_nonvacuous :
  potential_header (mkPotConf 2 1 1 1 1) = Some (lit "# Column contents: ID(0) Snapshot(1) R [cMpc/h](2-3) Phi_xy/(G Mvir / Rvir)(4-7) Phi_yz/(G Mvir / Rvir)(8-11) Phi_xz/(G Mvir / Rvir)(12-15)") /\
  exists cols, potential_columns [([1; 2], ([10; 20; 30; 40], [5; 6; 7; 8], [0; 0; 0; 9]))] = Some cols /\ nth 0 (nth (15 - 2) cols []) 0 = 9.
Proof.
  split; [vm_compute; reflexivity|].
  destruct (C131_layout 2 [([1; 2], ([10; 20; 30; 40], [5; 6; 7; 8], [0; 0; 0; 9]))]) as (cols & E & _ & H); [discriminate| |].
  - intros rs xy yz xz [[= <- <- <- <-]|[]]. repeat split.
  - exists cols. split; [exact E|]. destruct (H 0%nat _ _ _ _ eq_refl 3%nat) as (_ & H2). apply H2. cbn. lia.
Qed.

(** ** C132: halos near a face of the box *)

(** If the unwrapped distance of a particle exceeds RMaxMult radii, it is left out, even if it is close to the halo across a face of the periodic
    box: the maps stay as they are. *)
Theorem C132_periodic_refuted : forall c o r (x : vec3) m phis, 0 < r -> 0 <= tc_rMin c -> 0 <= tc_rMax c ->
  r * tc_rMax c < sqrt (dist2_3 x o) -> pot_point c (o, r) x m phis = phis.
Proof. intros c o r x m phis Hr Hmin Hmax Hd. apply pot_point_out; try assumption. intros (_ & H). lra. Qed.
Print Assumptions C132_periodic_refuted.

(** A halo 1 from the lower face of a box of width 100, a particle 1 from the upper face: they are 2 apart, both in the range of 1 to 5 radii, and
    the file with the particle is read, but the maps stay zero. *)
Example C132_nonvacuous :
  let c := mkPotConf 3 2 1 5 1 in let x := (99, 50, 50) in let o := (1, 50, 50) in
  dist2_3 (minus3 x (100, 0, 0)) o = 2 * 2 /\
  pot_meets c (o, 1) (mkPFile (90, 0, 0) (10, 100, 100) 100 0 [x] [6]) = true /\
  pot_points c (fun _ => 1 / 2) (o, 1) [x] [6] (repeat 0 9, repeat 0 9, repeat 0 9) = Some (repeat 0 9, repeat 0 9, repeat 0 9).
Proof.
  cbv zeta. split; [unfold dist2_3, minus3; ring|]. split.
  - unfold pot_meets. cbn [fst snd tc_rMax f_origin f_width f_tw]. unfold sheet_intersect.
    assert (Hx : in_range 1 (1 * 5) 90 10 100 = true).
    { unfold in_range, wrap_dist. cbv zeta. rewrite (proj2 (Rltb_false (100 / 2) (1 - 90))) by lra. rewrite (proj2 (Rltb_true (1 - 90) (100 / -2))) by lra.
      rewrite (proj2 (Rltb_false (100 / 2) (1 - (90 + 10)))) by lra. rewrite (proj2 (Rltb_true (1 - (90 + 10)) (100 / -2))) by lra.
      rewrite (proj2 (Rltb_true _ (1 - 90 + 100))) by lra. rewrite (proj2 (Rltb_true (1 - (90 + 10) + 100) _)) by lra. apply Bool.orb_true_r. }
    assert (Hy : in_range 50 (1 * 5) 0 100 100 = true).
    { unfold in_range. rewrite (proj2 (Rltb_true 0 _)) by lra. rewrite (proj2 (Rltb_true (50 - 1 * 5) _)) by lra. reflexivity. }
    rewrite Hx, Hy. reflexivity.
  - unfold pot_points. cbn [length loop rd nth_error tc_frac]. rewrite (proj2 (Rleb_true _ _)) by lra. rewrite C132_periodic_refuted; [reflexivity| | | |]; cbn [tc_rMin tc_rMax]; try lra.
    replace (dist2_3 (99, 50, 50) (1, 50, 50)) with (98 * 98) by (unfold dist2_3; ring). rewrite sqrt_square by lra. lra.
Qed.
