(** * The analysis of one halo does not depend on what was analysed before. *)
From Coq Require Import Reals Lra Lia ZArith List Bool.
From Verif Require Import ShellRunModel SmoothSpec LoopFacts MatModel InterpProofs SmoothProofs SplashProofs RingProofs LosSpec LosProofs LosProofs7 KdeProofs4.
Import List ListNotations.
Local Open Scope R_scope.

Lemma smoothed_det window xs ys v1 d1 v2 d2 : smoothed window xs ys v1 d1 -> smoothed window xs ys v2 d2 -> v1 = v2 /\ d1 = d2.
Proof.
  intros (k1 & kd1 & A1 & B1 & L1 & M1 & H1) (k2 & kd2 & A2 & B2 & L2 & M2 & H2).
  assert (k1 = k2) by congruence. assert (kd1 = kd2) by congruence. subst k2 kd2.
  split; apply (nth_ext _ _ 0 0); try congruence; intros i Hi.
  - destruct (H1 i ltac:(lia)) as (-> & _), (H2 i ltac:(lia)) as (-> & _). reflexivity.
  - destruct (H1 i ltac:(lia)) as (_ & ->), (H2 i ltac:(lia)) as (_ & ->). reflexivity.
Qed.

(** Same sizes, radii and planes. *)
Definition same_geometry (h1 h2 : Halo) : Prop :=
  h_n h1 = h_n h2 /\ h_bins h1 = h_bins h2 /\ h_rMin h1 = h_rMin h2 /\ h_rMax h1 = h_rMax h2 /\ h_irots h1 = h_irots h2.

Lemma line_result_det h1 h2 ring window dLim rhos r0 r1 r2 i : same_geometry h1 h2 ->
  line_result h1 ring window dLim rhos r0 r1 i -> line_result h2 ring window dLim rhos r0 r2 i ->
  nth i (rb_oks r1) true = nth i (rb_oks r2) true /\ nth i (rb_rs r1) 0 = nth i (rb_rs r2) 0 /\ nth i (rb_phis r1) 0 = nth i (rb_phis r2) 0.
Proof.
  intros (En & Eb & Em & EM & Ei) (v1 & d1 & S1 & N1 & Y1) (v2 & d2 & S2 & N2 & Y2).
  assert (Er : radii h2 = radii h1) by (unfold radii; rewrite Eb, Em, EM; reflexivity). rewrite Er in S2, Y2. rewrite <- Eb in N2, Y2. rewrite <- En in Y2.
  destruct (smoothed_det _ _ _ _ _ _ _ S1 S2) as (<- & <-). clear S1 S2.
  destruct (nth i (rb_oks r1) true) eqn:O1, (nth i (rb_oks r2) true) eqn:O2.
  - destruct (Y1 eq_refl) as (a & Ca & Ma & R1 & P1 & _). destruct (Y2 eq_refl) as (b & Cb & Mb & R2 & P2 & _).
    assert (a = b). { destruct (Nat.lt_trichotomy a b) as [H|[H|H]]; [|exact H|].
      - destruct (Mb a Ca) as (_ & Q). specialize (Q H). destruct (Ma b Cb) as (Q2 & _). lra.
      - destruct (Ma b Cb) as (_ & Q). specialize (Q H). destruct (Mb a Ca) as (Q2 & _). lra. }
    subst b. split; [reflexivity|]. split; congruence.
  - destruct (Y1 eq_refl) as (a & Ca & _). destruct (N2 eq_refl) as (_ & Hno & _). elim (Hno a Ca).
  - destruct (Y2 eq_refl) as (a & Ca & _). destruct (N1 eq_refl) as (_ & Hno & _). elim (Hno a Ca).
  - destruct (N1 eq_refl) as (R1 & _ & P1 & _). destruct (N2 eq_refl) as (R2 & _ & P2 & _). split; [reflexivity|]. split; congruence.
Qed.

(** Halos with the same geometry and the same densities on all lines of sight. *)
Definition twins (rings n bins : nat) (h1 h2 : Halo) : Prop :=
  same_geometry h1 h2 /\ h_n h1 = n /\ h_bins h1 = bins /\
  (forall ring px py, (ring < rings)%nat -> exists v, plane_to_volume h1 ring px py = Some v) /\
  forall ring i, (ring < rings)%nat -> (i < n)%nat -> exists rhos, length rhos = bins /\
    forall buf, length buf = bins -> get_rhos h1 ring i buf = Some rhos /\ get_rhos h2 ring i buf = Some rhos.

Lemma plane_geometry h1 h2 ring px py : same_geometry h1 h2 -> plane_to_volume h1 ring px py = plane_to_volume h2 ring px py.
Proof. intros (_ & _ & _ & _ & E). unfold plane_to_volume. now rewrite E. Qed.

Definition ring_densities (h : Halo) (bins ring i : nat) : list R := match get_rhos h ring i (zeros bins) with Some l => l | None => [] end.

Lemma twins_densities rings n bins h1 h2 ring i buf : twins rings n bins h1 h2 -> (ring < rings)%nat -> (i < n)%nat -> length buf = bins ->
  get_rhos h1 ring i buf = Some (ring_densities h1 bins ring i) /\ get_rhos h2 ring i buf = Some (ring_densities h1 bins ring i) /\ length (ring_densities h1 bins ring i) = bins.
Proof.
  intros (_ & _ & _ & _ & H) Hr Hi Lb. destruct (H ring i Hr Hi) as (rhos & L & E). destruct (E buf Lb) as (-> & ->).
  unfold ring_densities. destruct (E (zeros bins)) as (-> & _); [unfold zeros; apply repeat_length|]. auto.
Qed.

Section Halo.
  Variables (rings n bins window : nat) (dLim : R).
  Hypothesis Hodd : (window mod 2 = 1)%nat.
  Hypothesis Hwin : (4 < window < bins)%nat.

  Definition halo_step (h : Halo) := fun i (st : kcache * list RingBuffer) =>
    let '(c, buf) := st in
    do r <- rd buf i; do r <- rb_clear r;
    do x <- rb_splashback c r h i window dLim; let '(c, r) := x in
    do buf <- wr buf i r; Some (c, buf).

  (** Clear and Splashback of all ring buffers. *)
  Lemma halo_stage h dx rhos c buf : h_n h = n -> h_bins h = bins -> dx = (ln (h_rMax h) - ln (h_rMin h)) / INR bins ->
    (forall ring px py, (ring < rings)%nat -> exists v, plane_to_volume h ring px py = Some v) ->
    (forall ring i buf, (ring < rings)%nat -> (i < n)%nat -> length buf = bins -> get_rhos h ring i buf = Some (rhos ring i) /\ length (rhos ring i) = bins) ->
    consistent c window dx -> length buf = rings -> Forall (fun r => sized r n bins) buf ->
    exists c' buf', loop (length buf) (halo_step h) (c, buf) = Some (c', buf') /\
      consistent c' window dx /\ length buf' = rings /\ Forall (fun r => sized r n bins) buf' /\
      forall ring r, nth_error buf' ring = Some r -> forall i, (i < n)%nat -> line_result h ring window dLim (rhos ring i) (rb_init n bins) r i.
  Proof.
    intros Hn Hb Hdx Hp Hrhos Hc Lb Hs. rewrite Lb.
    destruct (loop_inv (fun k (st : kcache * list RingBuffer) => consistent (fst st) window dx /\ length (snd st) = rings /\ Forall (fun r => sized r n bins) (snd st) /\
      forall ring r, (ring < k)%nat -> nth_error (snd st) ring = Some r -> forall i, (i < n)%nat -> line_result h ring window dLim (rhos ring i) (rb_init n bins) r i)
      rings (halo_step h) (c, buf)) as ((c' & buf') & E & Hc' & Lb' & Hs' & H).
    - cbn [fst snd]. split; [exact Hc|]. split; [exact Lb|]. split; [exact Hs|]. intros; lia.
    - intros k (c1 & b1) Hk (Hc1 & L1 & S1 & H1). cbn [fst snd] in *. unfold halo_step.
      destruct (rd b1 k) as [r|] eqn:Er; [|apply nth_error_None in Er; lia].
      assert (Sr : sized r n bins) by (rewrite Forall_forall in S1; apply S1; eapply nth_error_In; exact Er).
      rewrite (rb_clear_ok _ _ _ Sr).
      destruct (rb_splashback_ok h k window n bins dLim (rhos k) Hn Hb Hodd Hwin) with (c := c1) (r := rb_init n bins) as (c2 & r2 & -> & Hc2 & S2 & R2).
      + intros i b0 Hi Hb0. apply Hrhos; assumption.
      + intros px py. apply Hp. exact Hk.
      + rewrite <- Hdx. exact Hc1.
      + apply rb_init_sized.
      + rewrite <- Hdx in Hc2. destruct (wr_some b1 k r2 (rb_init n bins)) as (b2 & Ew & L2 & H2); [lia|]. rewrite Ew. exists (c2, b2). split; [reflexivity|]. cbn [fst snd].
        split; [exact Hc2|]. split; [lia|].
        assert (Hnth : forall ring r', nth_error b2 ring = Some r' -> (ring = k /\ r' = r2) \/ (ring <> k /\ nth_error b1 ring = Some r')).
        { intros ring r' Er'. assert (Hl : (ring < length b2)%nat) by (apply nth_error_Some; congruence).
          pose proof (H2 ring) as Hr. rewrite (nth_error_nth _ _ (rb_init n bins) Er') in Hr. destruct (Nat.eqb_spec ring k); [left; auto|right]. split; [assumption|].
          rewrite (nth_error_nth' _ (rb_init n bins)) by lia. now rewrite Hr. }
        split.
        * apply Forall_forall. intros r' Hin. apply In_nth_error in Hin. destruct Hin as (ring & Er'). destruct (Hnth _ _ Er') as [(_ & ->)|(_ & Er1)]; [exact S2|].
          rewrite Forall_forall in S1. apply S1. eapply nth_error_In. exact Er1.
        * intros ring r' Hring Er' i Hi. destruct (Hnth _ _ Er') as [(-> & ->)|(Hne & Er1)]; [apply R2; exact Hi|]. apply (H1 ring); [lia|exact Er1|exact Hi].
    - exists c', buf'. split; [exact E|]. split; [exact Hc'|]. split; [exact Lb'|]. split; [exact Hs'|]. intros ring r Er. apply H; [|exact Er].
      cbn [snd] in *. rewrite <- Lb'. apply nth_error_Some. congruence.
  Qed.

  Lemma filter_ring_ext r1 r2 levels h : rb_oks r1 = rb_oks r2 -> rb_rs r1 = rb_rs r2 -> rb_phis r1 = rb_phis r2 -> filter_ring r1 levels h = filter_ring r2 levels h.
  Proof. intros E1 E2 E3. unfold filter_ring. now rewrite E1, E2, E3. Qed.

  Lemma volume_fit_ext B inverse xs ys h1 h2 I J : same_geometry h1 h2 -> penna_volume_fit B inverse xs ys h1 I J = penna_volume_fit B inverse xs ys h2 I J.
  Proof. intros (_ & _ & _ & _ & E). unfold penna_volume_fit, volume_points, plane_to_volume. now rewrite E. Qed.

  Lemma mapo_ext2 {A B} (f : A -> option B) l1 l2 : Forall2 (fun a b => f a = f b) l1 l2 -> mapo f l1 = mapo f l2.
  Proof. intros H. induction H as [|a b l1 l2 H _ IH]; [reflexivity|]. cbn [mapo]. now rewrite H, IH. Qed.

  (** What is kept between halos does not matter, and stays usable. *)
  Theorem calc_coeffs_det B inverse h1 h2 dx c1 c2 b1 b2 levels eta order : twins rings n bins h1 h2 -> dx = (ln (h_rMax h1) - ln (h_rMin h1)) / INR bins ->
    consistent c1 window dx -> consistent c2 window dx -> length b1 = rings -> length b2 = rings -> Forall (fun r => sized r n bins) b1 -> Forall (fun r => sized r n bins) b2 ->
    (calc_coeffs B inverse c1 h1 b1 window dLim levels eta order = None /\ calc_coeffs B inverse c2 h2 b2 window dLim levels eta order = None) \/
    exists c1' b1' c2' b2' cs, calc_coeffs B inverse c1 h1 b1 window dLim levels eta order = Some (c1', b1', cs) /\
      calc_coeffs B inverse c2 h2 b2 window dLim levels eta order = Some (c2', b2', cs) /\
      consistent c1' window dx /\ length b1' = rings /\ Forall (fun r => sized r n bins) b1'.
  Proof.
    intros HT Hdx Hc1 Hc2 L1 L2 S1 S2. pose proof HT as (HG & En & Eb & Hp & _). pose proof HG as (En2 & Eb2 & Em & EM & Ei).
    destruct (halo_stage h1 dx (ring_densities h1 bins) c1 b1) as (c1' & b1' & E1 & Hc1' & L1' & S1' & R1); auto.
    { intros ring i buf Hr Hi Lb. destruct (twins_densities _ _ _ _ _ ring i buf HT Hr Hi Lb) as (A & _ & C). auto. }
    destruct (halo_stage h2 dx (ring_densities h1 bins) c2 b2) as (c2' & b2' & E2 & Hc2' & L2' & S2' & R2); auto.
    { congruence. } { congruence. } { rewrite <- EM, <- Em. exact Hdx. }
    { intros ring px py Hr. destruct (Hp ring px py Hr) as (v & Hv). exists v. rewrite <- (plane_geometry h1 h2) by exact HG. exact Hv. }
    { intros ring i buf Hr Hi Lb. destruct (twins_densities _ _ _ _ _ ring i buf HT Hr Hi Lb) as (_ & A & C). auto. }
    unfold calc_coeffs. fold (halo_step h1) (halo_step h2). rewrite E1, E2.
    assert (Hf : filter_points b1' levels (h_rMax h1 / eta) = filter_points b2' levels (h_rMax h2 / eta)).
    { unfold filter_points. rewrite EM. rewrite (mapo_ext2 (fun r => filter_ring r levels (h_rMax h2 / eta)) b1' b2'); [reflexivity|].
      assert (Hgen : forall i, (i < rings)%nat -> filter_ring (nth i b1' (rb_init n bins)) levels (h_rMax h2 / eta) = filter_ring (nth i b2' (rb_init n bins)) levels (h_rMax h2 / eta)).
      { intros ring Hr. set (r1 := nth ring b1' (rb_init n bins)). set (r2 := nth ring b2' (rb_init n bins)).
        assert (N1 : nth_error b1' ring = Some r1) by (apply nth_error_nth'; lia). assert (N2 : nth_error b2' ring = Some r2) by (apply nth_error_nth'; lia).
        assert (Z1 : sized r1 n bins) by (rewrite Forall_forall in S1'; apply S1'; eapply nth_error_In; exact N1).
        assert (Z2 : sized r2 n bins) by (rewrite Forall_forall in S2'; apply S2'; eapply nth_error_In; exact N2).
        destruct Z1 as (_ & _ & _ & _ & _ & _ & _ & A1 & A2 & A3 & _). destruct Z2 as (_ & _ & _ & _ & _ & _ & _ & B1 & B2 & B3 & _).
        assert (Hl : forall i, (i < n)%nat -> nth i (rb_oks r1) true = nth i (rb_oks r2) true /\ nth i (rb_rs r1) 0 = nth i (rb_rs r2) 0 /\ nth i (rb_phis r1) 0 = nth i (rb_phis r2) 0).
        { intros i Hi. apply (line_result_det h1 h2 ring window dLim (ring_densities h1 bins ring i) (rb_init n bins)); [exact HG|apply (R1 ring r1 N1 i Hi)|apply (R2 ring r2 N2 i Hi)]. }
        apply filter_ring_ext.
        - apply (nth_ext _ _ true true); [congruence|]. intros i Hi. apply Hl. lia.
        - apply (nth_ext _ _ 0 0); [congruence|]. intros i Hi. apply Hl. lia.
        - apply (nth_ext _ _ 0 0); [congruence|]. intros i Hi. apply Hl. lia. }
      clear -L1' L2' Hgen. revert b2' L1' L2' Hgen. generalize rings as m. induction b1' as [|a b1' IH]; intros m [|b b2'] L1 L2 H; cbn [length] in *; try lia; constructor.
      - apply (H 0%nat). lia.
      - apply (IH (length b1')); [reflexivity|lia|]. intros i Hi. apply (H (S i)). lia. }
    rewrite Hf. destruct (filter_points b2' levels (h_rMax h2 / eta)) as [(pxs, pys)|]; [|left; auto].
    rewrite (volume_fit_ext B inverse pxs pys h1 h2) by exact HG.
    destruct (penna_volume_fit B inverse pxs pys h2 order order) as [cs|]; [|left; auto].
    right. exists c1', b1', c2', b2', cs. auto 10.
  Qed.
End Halo.
