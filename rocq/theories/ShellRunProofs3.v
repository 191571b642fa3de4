(** * The rows of a catalogue are those of its halos taken one at a time. *)
From Coq Require Import Reals Lra Lia ZArith List Bool Permutation.
From Verif Require Import ShellRunModel SmoothSpec LoopFacts MatModel InterpProofs SplashProofs RingProofs LosSpec LosProofs LosProofs2 LosProofs3 LosProofs4 LosProofs5 LosProofs6 LosProofs7 LosProofs8 LosProofs9 LosProofs10 LosProofs11 ShellRunProofs ShellRunProofs2 RockstarProofs KdeProofs4 CmdProofs.
Import List ListNotations.
Local Open Scope R_scope.

Section Run.
  Variables (B : nat) (inverse : nat -> list R -> list R) (c : ShellConf).
  Let rings := length (sc_norms c).
  Let n := sc_spokes c.
  Let bins := sc_bins c.
  Let load := sc_load c.
  Let L := ln (c_rMaxMult load) - ln (sc_rMinMult c).
  Let dx := L / INR bins.
  Let fresh := repeat (rb_init n bins) rings.

  Hypothesis Hnorms : Forall (fun v : vec3 => dot3 v v = 1) (sc_norms c).
  Hypothesis Hodd : (sc_window c mod 2 = 1)%nat.
  Hypothesis Hwin : (4 < sc_window c < sc_bins c)%nat.
  Hypothesis Hn : (0 < sc_spokes c)%nat.
  Hypothesis Hmult : 0 < sc_rMinMult c < c_rMaxMult (sc_load c).
  Hypothesis Hkern : 0 <= c_rKernelMult (sc_load c).
  Hypothesis Hsf : (0 < c_sf3 (sc_load c))%nat.

  Definition usable (k : kcache) (buf : list RingBuffer) : Prop :=
    consistent k (sc_window c) dx /\ length buf = rings /\ Forall (fun r => sized r n bins) buf.

  Lemma fresh_usable : usable [] fresh.
  Proof.
    split; [intros k kd H; discriminate|]. split; [apply repeat_length|]. apply Forall_forall. intros r Hr. apply repeat_spec in Hr. subst. apply rb_init_sized.
  Qed.

  (** The coefficients of a halo analysed first. *)
  Definition alone (h : Halo) : option (list R) :=
    do a <- calc_coeffs B inverse [] h fresh (sc_window c) (sc_cutoff c) (sc_levels c) (sc_eta c) (sc_order c); Some (snd a).

  Lemma calc_alone h1 h2 k buf : twins rings n bins h1 h2 -> ln (h_rMax h1) - ln (h_rMin h1) = L -> usable k buf ->
    (calc_coeffs B inverse k h1 buf (sc_window c) (sc_cutoff c) (sc_levels c) (sc_eta c) (sc_order c) = None /\ alone h2 = None) \/
    exists k' buf' cs, calc_coeffs B inverse k h1 buf (sc_window c) (sc_cutoff c) (sc_levels c) (sc_eta c) (sc_order c) = Some (k', buf', cs) /\ alone h2 = Some cs /\ usable k' buf'.
  Proof.
    intros HT HL (U1 & U2 & U3). destruct fresh_usable as (V1 & V2 & V3). unfold alone.
    destruct (calc_coeffs_det rings n bins (sc_window c) (sc_cutoff c) Hodd Hwin B inverse h1 h2 dx k [] buf fresh (sc_levels c) (sc_eta c) (sc_order c) HT) as [(-> & ->)|(k1 & b1 & k2 & b2 & cs & -> & -> & W1 & W2 & W3)]; auto.
    - unfold dx. now rewrite HL.
    - right. exists k1, b1, cs. split; [reflexivity|]. split; [reflexivity|]. split; [exact W1|]. auto.
  Qed.

  (** haloAnalysis *)
  Lemma analysis_ok halos idxs (h2 : nat -> Halo) k buf out :
    (forall a h, nth_error halos a = Some h -> twins rings n bins h (h2 a) /\ ln (h_rMax h) - ln (h_rMin h) = L) ->
    length idxs = length halos -> NoDup idxs -> (forall i, In i idxs -> (i < length out)%nat) -> usable k buf ->
    (halo_analysis B inverse c halos idxs k buf out = None /\ exists a, (a < length halos)%nat /\ alone (h2 a) = None) \/
    exists k' buf' out', halo_analysis B inverse c halos idxs k buf out = Some (k', buf', out') /\ usable k' buf' /\ length out' = length out /\
      (forall a, (a < length halos)%nat -> alone (h2 a) = Some (nth (nth a idxs 0%nat) out' [])) /\
      forall i, ~ In i idxs -> nth i out' [] = nth i out [].
  Proof.
    intros HT Li Nd Hi HU. unfold halo_analysis. set (body := fun (i : nat) (st : kcache * list RingBuffer * list (list R)) => _).
    assert (Hgen : forall m, (m <= length halos)%nat ->
      (loop m body (k, buf, out) = None /\ exists a, (a < m)%nat /\ alone (h2 a) = None) \/
      exists k' buf' out', loop m body (k, buf, out) = Some (k', buf', out') /\ usable k' buf' /\ length out' = length out /\
        (forall a, (a < m)%nat -> alone (h2 a) = Some (nth (nth a idxs 0%nat) out' [])) /\
        forall i, (forall a, (a < m)%nat -> nth a idxs 0%nat <> i) -> nth i out' [] = nth i out []).
    { induction m as [|m IH]; intros Hm.
      - right. exists k, buf, out. cbn [loop]. split; [reflexivity|]. split; [exact HU|]. split; [reflexivity|]. split; [intros; lia|auto].
      - cbn [loop]. destruct (IH ltac:(lia)) as [(E & a & Ha & Hna)|(k1 & b1 & o1 & E & U1 & L1 & D1 & R1)]; rewrite E.
        + left. split; [reflexivity|]. exists a. split; [lia|exact Hna].
        + unfold body. cbv beta iota.
          destruct (rd halos m) as [h|] eqn:Eh; [|apply nth_error_None in Eh; lia].
          rewrite (rd_nth idxs m 0%nat) by lia. destruct (HT m h Eh) as (T & TL).
          destruct (calc_alone h (h2 m) k1 b1 T TL U1) as [(-> & Ha)|(k2 & b2 & cs & -> & Ha & U2)].
          * left. split; [reflexivity|]. exists m. split; [lia|exact Ha].
          * right. destruct (wr_some o1 (nth m idxs 0%nat) cs []) as (o2 & -> & L2 & H2); [rewrite L1; apply Hi, nth_In; lia|].
            exists k2, b2, o2. split; [reflexivity|]. split; [exact U2|]. split; [lia|]. split.
            -- intros a Hma. rewrite H2. destruct (Nat.eqb_spec (nth a idxs 0%nat) (nth m idxs 0%nat)) as [En|En].
               ++ assert (a = m) by (apply (proj1 (NoDup_nth idxs 0%nat) Nd); lia || exact En). subst a. exact Ha.
               ++ assert (a <> m) by congruence. apply D1. lia.
            -- intros i Hni. rewrite H2. destruct (Nat.eqb_spec i (nth m idxs 0%nat)) as [En|En]; [elim (Hni m ltac:(lia)); auto|]. apply R1. intros a Ha'. apply Hni. lia. }
    destruct (Hgen (length halos) (le_n _)) as [H|(k1 & b1 & o1 & E & U1 & L1 & D1 & R1)]; [left; exact H|]. right. exists k1, b1, o1. split; [exact E|]. split; [exact U1|]. split; [exact L1|]. split; [exact D1|].
    intros i Hni. apply R1. intros a Ha <-. apply Hni, nth_In. lia.
  Qed.

  (** The row of a halo that is the only one of the catalogue. *)
  Definition single (hd0 : PFile) (files : list PFile) (xr : vec * R) : option (list R) :=
    do hs <- created c hd0 [xr]; do r <- sphere_loop load 1 files hs []; do h <- rd (fst r) 0; alone h.

  Lemma init_ok hd0 xr : 0 < snd xr -> exists h, halo_init (sc_norms c) (fst xr) (snd xr * sc_rMinMult c) (snd xr * c_rMaxMult load) bins n (background_density c hd0 (snd xr)) = Some h /\
    conform rings bins n L h /\ good_halo h /\ h_origin h = fst xr /\ h_rMax h = snd xr * c_rMaxMult load.
  Proof.
    intros Hr. assert (Hrr : 0 < snd xr * sc_rMinMult c < snd xr * c_rMaxMult load) by (unfold load; split; [apply Rmult_lt_0_compat; lra|apply Rmult_lt_compat_l; lra]).
    destruct (halo_init_good (sc_norms c) (fst xr) (snd xr * sc_rMinMult c) (snd xr * c_rMaxMult load) bins n (background_density c hd0 (snd xr))) as (h & E & _); [unfold bins; lia|exact Hn|exact Hrr|exact Hnorms|].
    assert (Hb0 : (0 < bins)%nat) by (unfold bins; lia). destruct (init_conform _ _ _ _ _ _ _ _ Hb0 Hn Hrr Hnorms E) as (C & G & E1 & E2 & E3 & E4 & E5 & E6).
    exists h. split; [exact E|]. split; [|auto]. replace L with (ln (snd xr * c_rMaxMult load) - ln (snd xr * sc_rMinMult c)); [exact C|].
    rewrite !ln_mult by (unfold load; lra). unfold L. ring.
  Qed.

  Lemma created_ok hd0 coords : Forall (fun xr : vec * R => 0 < snd xr) coords ->
    exists hs, created c hd0 coords = Some hs /\ length hs = length coords /\
      forall a h, nth_error hs a = Some h -> exists xr, nth_error coords a = Some xr /\ created c hd0 [xr] = Some [h] /\
        conform rings bins n L h /\ good_halo h /\ h_origin h = fst xr /\ h_rMax h = snd xr * c_rMaxMult load.
  Proof.
    intros HF. unfold created. unfold create_halos at 1. destruct (LosProofs7.mapo_spec (fun xr : vec * R => halo_init (sc_norms c) (fst xr) (snd xr * sc_rMinMult c) (snd xr * c_rMaxMult load) bins n (background_density c hd0 (snd xr))) coords) as (hs & E & Lh & N).
    { intros xr Hin. rewrite Forall_forall in HF. destruct (init_ok hd0 xr (HF xr Hin)) as (h & Eh & _). eauto. }
    unfold load, bins, n in E. rewrite E.
    assert (Hex : forall l, Forall (fun xr : vec * R => 0 < snd xr) l -> existsb (fun xr : vec * R => negb (Rltb 0 (snd xr))) l = false).
    { intros l Hl. induction Hl as [|xr l Hx Hl IH]; [reflexivity|]. cbn [existsb]. rewrite IH. rewrite (proj2 (Rltb_true 0 (snd xr)) Hx). reflexivity. }
    rewrite (Hex coords HF). exists hs. split; [reflexivity|]. split; [exact Lh|]. intros a h Ea.
    destruct (nth_error coords a) as [xr|] eqn:Ex. 2: { apply nth_error_None in Ex. assert (a < length hs)%nat by (apply nth_error_Some; congruence). lia. }
    destruct (N a xr Ex) as (h' & Eh' & Ei). assert (h' = h) by congruence. subst h'. exists xr. split; [reflexivity|].
    assert (Hx : 0 < snd xr) by (rewrite Forall_forall in HF; apply HF; eapply nth_error_In; exact Ex).
    destruct (init_ok hd0 xr Hx) as (h' & Eh'' & C & G & O & M). assert (h' = h) by congruence. subst h'. split; [|auto].
    unfold create_halos. cbn [mapo]. unfold load, bins, n in Ei. rewrite Ei. rewrite (Hex [xr]); [reflexivity|]. constructor; [exact Hx|constructor].
  Qed.

  Lemma created_none hd0 coords xr : In xr coords -> snd xr <= 0 -> created c hd0 coords = None.
  Proof.
    intros Hin Hr. unfold created. destruct (create_halos _ _ _ _ _ _ coords); [|reflexivity].
    assert (E : existsb (fun xr : vec * R => negb (Rltb 0 (snd xr))) coords = true); [|now rewrite E].
    apply existsb_exists. exists xr. split; [exact Hin|]. apply negb_true_iff. apply Rltb_false. lra.
  Qed.

  Definition workers_ok (ws : list Halo) : Prop := Forall (fun w => forall h, conform rings bins n L h -> worker_halo h w) ws.

  (** The files of a snapshot and a halo: positions in the box, and the halo with its kernels at most half as wide as the box. *)
  Definition fits (files : list PFile) (xr : vec * R) : Prop :=
    Forall (fun f => file_ok f /\ in_box (f_tw f) (fst xr) /\ snd xr * c_rMaxMult load + snd xr * c_rKernelMult load <= f_tw f / 2) files.

  Lemma kernel_radius r : r * c_rMaxMult load * c_rKernelMult load / c_rMaxMult load = r * c_rKernelMult load.
  Proof. field. unfold load. lra. Qed.

  Lemma snapshot_ok hd0 read snap coords idxs k buf ws out files : read snap = Some files ->
    (forall i, In i idxs -> (i < length coords)%nat /\ fits files (nth i coords ((0, 0, 0), 0))) -> NoDup idxs -> idxs <> [] -> length out = length coords ->
    usable k buf -> workers_ok ws ->
    (shell_snapshot B inverse c (length ws + 1) hd0 read snap coords idxs (k, buf, ws) out = None /\
       exists i, In i idxs /\ single hd0 files (nth i coords ((0, 0, 0), 0)) = None) \/
    exists k' buf' ws' out', shell_snapshot B inverse c (length ws + 1) hd0 read snap coords idxs (k, buf, ws) out = Some ((k', buf', ws'), out') /\
      usable k' buf' /\ workers_ok ws' /\ length ws' = length ws /\ length out' = length out /\
      (forall i, In i idxs -> single hd0 files (nth i coords ((0, 0, 0), 0)) = Some (nth i out' [])) /\
      forall i, ~ In i idxs -> nth i out' [] = nth i out [].
  Proof.
    intros Er Hidx Nd Hne Lo HU HW. unfold shell_snapshot. rewrite (gather_spec ((0, 0, 0), 0)) by (intros i Hi; apply Hidx; exact Hi).
    set (rows := map (fun i => nth i coords ((0, 0, 0), 0)) idxs).
    destruct (Forall_Exists_dec (fun xr : vec * R => 0 < snd xr) (fun xr => Rlt_dec 0 (snd xr)) rows) as [Hpos|Hneg].
    2: { left. apply Exists_exists in Hneg. destruct Hneg as (xr & Hin & Hr). assert (Hr' : snd xr <= 0) by lra. rewrite (created_none hd0 rows xr Hin Hr'). split; [reflexivity|].
      unfold rows in Hin. apply in_map_iff in Hin. destruct Hin as (i & <- & Hi). exists i. split; [exact Hi|]. unfold single. rewrite (created_none hd0 [nth i coords ((0, 0, 0), 0)] (nth i coords ((0, 0, 0), 0)) (or_introl eq_refl) Hr'). reflexivity. }
    destruct (created_ok hd0 rows Hpos) as (hs & -> & Lh & Hhs). rewrite Er. unfold rows in Lh. rewrite map_length in Lh.
    assert (Hrow : forall a h, nth_error hs a = Some h -> exists i, nth_error idxs a = Some i /\ In i idxs /\ (i < length coords)%nat /\
       created c hd0 [nth i coords ((0, 0, 0), 0)] = Some [h] /\ conform rings bins n L h /\ good_halo h /\ h_origin h = fst (nth i coords ((0, 0, 0), 0)) /\
       h_rMax h = snd (nth i coords ((0, 0, 0), 0)) * c_rMaxMult load /\ 0 < snd (nth i coords ((0, 0, 0), 0)) /\ fits files (nth i coords ((0, 0, 0), 0))).
    { intros a h Ea. destruct (Hhs a h Ea) as (xr & Ex & Hc1 & C & G & O & M). unfold rows in Ex. rewrite nth_error_map in Ex. destruct (nth_error idxs a) as [i|] eqn:Ei; [|discriminate].
      injection Ex as <-. exists i. split; [reflexivity|]. assert (Hi : In i idxs) by (eapply nth_error_In; exact Ei). split; [exact Hi|]. destruct (Hidx i Hi) as (A & F). repeat (split; [assumption|]). split; [|exact F].
      rewrite Forall_forall in Hpos. apply Hpos. unfold rows. apply in_map_iff. exists i. auto. }
    destruct (sphere_loop_twins load rings bins n L files hs ws Hsf) as (hs' & ws' & Esl & Lh' & Lw' & HW' & HTw).
    { unfold bins. lia. }
    { apply Forall_forall. intros f Hf. assert (Hall : forall a h, nth_error hs a = Some h -> file_ok f /\ in_box (f_tw f) (h_origin h) /\ 0 <= h_rMax h + h_rMax h * c_rKernelMult load / c_rMaxMult load <= f_tw f / 2).
      { intros a h Ea. destruct (Hrow a h Ea) as (i & _ & _ & _ & _ & _ & _ & O & M & P & F). unfold fits in F. rewrite Forall_forall in F. destruct (F f Hf) as (F1 & F2 & F3).
        split; [exact F1|]. rewrite O, M. split; [exact F2|]. rewrite kernel_radius. split; [|exact F3]. unfold load. nra. }
      destruct hs as [|h0 hs0].
      - destruct idxs; [contradiction|discriminate].
      - split; [apply (Hall 0%nat h0 eq_refl)|]. apply Forall_forall. intros h Hin. apply In_nth_error in Hin. destruct Hin as (a & Ea). apply (Hall a h Ea). }
    { apply Forall_forall. intros h Hin. apply In_nth_error in Hin. destruct Hin as (a & Ea). destruct (Hrow a h Ea) as (i & _ & _ & _ & _ & C & G & _). auto. }
    { exact HW. }
    unfold load in Esl. rewrite Esl.
    set (h2 := fun a => match nth_error hs a with Some h => match sphere_loop load 1 files [h] [] with Some ([g], _) => g | _ => fresh_worker end | None => fresh_worker end).
    assert (Hh2 : forall a i, nth_error idxs a = Some i -> single hd0 files (nth i coords ((0, 0, 0), 0)) = alone (h2 a)).
    { intros a i Ei. destruct (nth_error hs a) as [h|] eqn:Ea. 2: { apply nth_error_None in Ea. assert (a < length idxs)%nat by (apply nth_error_Some; congruence). lia. }
      destruct (Hrow a h Ea) as (i' & Ei' & _ & _ & Hcr & _). assert (i' = i) by congruence. subst i'.
      destruct (HTw a h Ea) as (h1 & g & _ & Es & _). unfold single, h2. rewrite Hcr, Ea, Es. reflexivity. }
    destruct (analysis_ok hs' idxs h2 k buf out) as [(-> & a & Ha & Hna)|(k1 & b1 & o1 & -> & U1 & L1 & D1 & R1)]; [| |exact Nd| |exact HU| |].
    - intros a h1 Ea'. destruct (nth_error hs a) as [h|] eqn:Ea. 2: { apply nth_error_None in Ea. assert (a < length hs')%nat by (apply nth_error_Some; congruence). lia. }
      destruct (HTw a h Ea) as (h1' & g & E1 & Es & T & Em & EM). assert (h1' = h1) by congruence. subst h1'. unfold h2. rewrite Ea, Es. split; [exact T|]. rewrite Em, EM.
      destruct (Hrow a h Ea) as (i & _ & _ & _ & _ & C & _). apply C.
    - congruence.
    - intros i Hi. rewrite Lo. apply Hidx. exact Hi.
    - left. split; [reflexivity|]. destruct (nth_error idxs a) as [i|] eqn:Ei. 2: { apply nth_error_None in Ei. lia. }
      exists i. split; [eapply nth_error_In; exact Ei|]. rewrite (Hh2 a i Ei). exact Hna.
    - right. exists k1, b1, ws', o1. split; [reflexivity|]. split; [exact U1|]. split; [exact HW'|]. split; [exact Lw'|]. split; [exact L1|]. split; [|exact R1].
      intros i Hi. destruct (In_nth_error _ _ Hi) as (a & Ea). rewrite (Hh2 a i Ea). rewrite D1.
      + do 2 f_equal. apply nth_error_nth. exact Ea.
      + rewrite Lh', Lh. apply nth_error_Some. congruence.
  Qed.

  Section Catalogue.
    Variables (read : Z -> option (list PFile)) (snaps : list Z) (coords : list (vec * R)).
    Hypothesis Lco : length coords = length snaps.
    Hypothesis Hrows : forall i, (i < length snaps)%nat -> nth i snaps 0%Z <> (-1)%Z /\
      forall files, read (nth i snaps 0%Z) = Some files -> fits files (nth i coords ((0, 0, 0), 0)).

    Definition row_at (hd0 : PFile) (i : nat) : option (list R) :=
      match read (nth i snaps 0%Z) with Some files => single hd0 files (nth i coords ((0, 0, 0), 0)) | None => None end.

    Lemma snapshots_ok hd0 ib ks : keyed snaps (length snaps) (fun i => i) ib -> NoDup ks -> (forall s, In s ks -> exists i, (i < length snaps)%nat /\ nth i snaps 0%Z = s) ->
      forall k buf ws out, usable k buf -> workers_ok ws -> length out = length coords ->
      (shell_snapshots B inverse c (length ws + 1) hd0 read ib coords ks (k, buf, ws) out = None /\
         exists i, (i < length snaps)%nat /\ In (nth i snaps 0%Z) ks /\ row_at hd0 i = None) \/
      exists out', shell_snapshots B inverse c (length ws + 1) hd0 read ib coords ks (k, buf, ws) out = Some out' /\ length out' = length out /\
        forall i, (i < length snaps)%nat -> (In (nth i snaps 0%Z) ks -> row_at hd0 i = Some (nth i out' [])) /\ (~ In (nth i snaps 0%Z) ks -> nth i out' [] = nth i out []).
    Proof.
      intros (Nk & Kk & Gk). induction ks as [|s ks IH]; intros Nd Hks k buf ws out HU HW Lo; cbn [shell_snapshots].
      - right. exists out. split; [reflexivity|]. split; [reflexivity|]. intros i Hi. split; [intros []|reflexivity].
      - inversion Nd as [|? ? Hns Nd']; subst. destruct (Hks s (or_introl eq_refl)) as (i0 & Hi0 & Es). destruct (Hrows i0 Hi0) as (Hm1 & _). rewrite Es in Hm1.
        destruct (Z.eqb_spec s (-1)); [contradiction|].
        assert (Eidx : CmdModel.mget ib s = rows_of snaps (length snaps) s) by (rewrite Gk; apply map_id). rewrite Eidx. set (idxs := rows_of snaps (length snaps) s).
        assert (Hidx : forall i, In i idxs <-> (i < length snaps)%nat /\ nth i snaps 0%Z = s) by (intros i; apply in_rows_of).
        assert (Hne : In i0 idxs) by (apply Hidx; auto).
        destruct (read s) as [files|] eqn:Er.
        2: { left. split.
          - unfold shell_snapshot. rewrite (gather_spec ((0, 0, 0), 0)) by (intros i Hi; apply Hidx in Hi; lia). destruct (created c hd0 _); [|reflexivity]. now rewrite Er.
          - exists i0. split; [exact Hi0|]. split; [left; auto|]. unfold row_at. now rewrite Es, Er. }
        destruct (snapshot_ok hd0 read s coords idxs k buf ws out files Er) as [(E & i & Hi & Hno)|(k1 & b1 & ws1 & o1 & E & U1 & W1 & Lw1 & L1 & D1 & R1)]; auto.
        { intros i Hi. apply Hidx in Hi. destruct Hi as (Hi & Esi). split; [lia|]. apply (proj2 (Hrows i Hi)). rewrite Esi. exact Er. }
        { apply nodup_rows_of. }
        { intros Hnil. rewrite Hnil in Hne. destruct Hne. }
        + left. rewrite E. split; [reflexivity|]. apply Hidx in Hi. destruct Hi as (Hi & Esi). exists i. split; [exact Hi|]. split; [left; auto|]. unfold row_at. now rewrite Esi, Er.
        + rewrite E. rewrite <- Lw1. destruct (IH Nd' (fun s' H => Hks s' (or_intror H)) k1 b1 ws1 o1 U1 W1 ltac:(lia)) as [(E2 & i & Hi & Hin & Hno)|(o2 & E2 & L2 & H2)].
          * left. split; [exact E2|]. exists i. split; [exact Hi|]. split; [right; exact Hin|exact Hno].
          * right. exists o2. split; [exact E2|]. split; [lia|]. intros i Hi. destruct (H2 i Hi) as (A & Bq). split.
            -- intros [Hs|Hin]; [|apply A; exact Hin]. rewrite Bq by (rewrite <- Hs; exact Hns). unfold row_at. rewrite <- Hs, Er. apply D1. apply Hidx. auto.
            -- intros Hnin. rewrite Bq by (intros H; apply Hnin; right; exact H). apply R1. intros Hin. apply Hidx in Hin. apply Hnin. left. symmetry. apply Hin.
    Qed.
  End Catalogue.

  Definition row_of (read : Z -> option (list PFile)) (snap : Z) (xr : vec * R) : option (list R) :=
    match read snap with Some (f :: fs) => single f (f :: fs) xr | _ => None end.

  Lemma single_background hd hd' files xr : f_rhoM hd = f_rhoM hd' -> single hd files xr = single hd' files xr.
  Proof. intros E. unfold single, created, background_density. now rewrite E. Qed.

  Lemma rows_ok workers enum read ids snaps coords : (0 < workers)%nat -> (forall l, Permutation (enum l) l) ->
    length ids = length snaps -> length coords = length snaps -> snaps <> [] ->
    (forall i, (i < length snaps)%nat -> nth i snaps 0%Z <> (-1)%Z /\
       forall files, read (nth i snaps 0%Z) = Some files -> files <> [] /\ fits files (nth i coords ((0, 0, 0), 0))) ->
    (forall i j f fs g gs, (i < length snaps)%nat -> (j < length snaps)%nat -> read (nth i snaps 0%Z) = Some (f :: fs) -> read (nth j snaps 0%Z) = Some (g :: gs) -> f_rhoM f = f_rhoM g) ->
    (shell_rows B inverse c workers enum read ids snaps coords = None /\
       exists i, (i < length snaps)%nat /\ row_of read (nth i snaps 0%Z) (nth i coords ((0, 0, 0), 0)) = None) \/
    exists out, shell_rows B inverse c workers enum read ids snaps coords = Some out /\ length out = length snaps /\
      forall i, (i < length snaps)%nat -> row_of read (nth i snaps 0%Z) (nth i coords ((0, 0, 0), 0)) = Some (nth i out []).
  Proof.
    intros Hw Hen Li Lco Hne Hrows Hbg. unfold shell_rows.
    destruct (binBySnap_ok snaps ids ltac:(lia)) as (sb & ib & -> & (Nsb & Ksb & _) & Kib).
    set (ks := CmdModel.sortInts (enum (CmdModel.mkeys sb))).
    assert (Pk : Permutation ks (CmdModel.mkeys sb)) by (unfold ks; rewrite sortInts_perm; apply Hen).
    assert (Hks : forall s, In s ks <-> exists i, (i < length snaps)%nat /\ nth i snaps 0%Z = s).
    { intros s. rewrite <- Ksb. split; apply Permutation_in; [exact Pk|symmetry; exact Pk]. }
    assert (Nk : NoDup ks) by (apply (Permutation_NoDup (Permutation_sym Pk)); exact Nsb).
    assert (Hall : forall i, (i < length snaps)%nat -> In (nth i snaps 0%Z) ks) by (intros i Hi; apply Hks; eauto).
    destruct (rd ks 0) as [s0|] eqn:E0.
    2: { exfalso. apply nth_error_None in E0. destruct ks; [|cbn in E0; lia]. apply (Hall 0%nat). destruct snaps; [contradiction|cbn; lia]. }
    destruct (proj1 (Hks s0) (nth_error_In _ _ E0)) as (i0 & Hi0 & Es0).
    destruct (read s0) as [files0|] eqn:Er0.
    2: { left. split; [reflexivity|]. exists i0. split; [exact Hi0|]. unfold row_of. now rewrite Es0, Er0. }
    destruct (Hrows i0 Hi0) as (_ & Hf0). rewrite Es0 in Hf0. destruct (Hf0 files0 Er0) as (Hne0 & _). destruct files0 as [|hd0 fs0]; [contradiction|]. cbn [rd nth_error].
    assert (Hrow : forall i, (i < length snaps)%nat -> row_at read snaps coords hd0 i = row_of read (nth i snaps 0%Z) (nth i coords ((0, 0, 0), 0))).
    { intros i Hi. unfold row_at, row_of. destruct (read (nth i snaps 0%Z)) as [files|] eqn:Er; [|reflexivity]. destruct (Hrows i Hi) as (_ & Hf). destruct (Hf files Er) as (Hnf & _). destruct files as [|f fs]; [contradiction|].
      apply single_background. apply (Hbg i0 i hd0 fs0 f fs); auto. rewrite Es0. exact Er0. }
    destruct (snapshots_ok read snaps coords Lco) with (hd0 := hd0) (ib := ib) (ks := ks) (k := @nil (nat * (Kernel * Kernel))) (buf := fresh) (ws := repeat fresh_worker (workers - 1))
      (out := repeat (repeat 0 (sc_order c * sc_order c * 2)) (length ids)) as [(E & i & Hi & _ & Hno)|(out & E & Lo & H)].
    - intros i Hi. destruct (Hrows i Hi) as (A & F). split; [exact A|]. intros files Ef. apply (F files Ef).
    - exact Kib.
    - exact Nk.
    - intros s Hs. apply Hks. exact Hs.
    - apply fresh_usable.
    - apply Forall_forall. intros w Hin h C. apply repeat_spec in Hin. subst w. apply (zero_worker rings bins n L h); [unfold bins; lia|exact C].
    - rewrite repeat_length. lia.
    - rewrite repeat_length in E. replace (workers - 1 + 1)%nat with workers in E by lia. left. split; [exact E|]. exists i. split; [exact Hi|]. rewrite <- Hrow by exact Hi. exact Hno.
    - rewrite repeat_length in E. replace (workers - 1 + 1)%nat with workers in E by lia. right. exists out. split; [exact E|]. rewrite repeat_length in Lo. split; [lia|]. intros i Hi. rewrite <- Hrow by exact Hi. apply (H i Hi). apply Hall. exact Hi.
  Qed.
End Run.
