(** * C133-C136: check mode *)
From Verif Require Import CheckModel LosSpec PhaseSpec ProfSpec LoopFacts RealBase InterpProofs ProfProofs PhaseProofs.
From Verif Require Import GoBase.
From Coq Require Import ZArith Reals List Lia Lra.
Import List ListNotations.
Local Open Scope R_scope.

(** ** Specification *)

(** x agrees with y to 10% of y. *)
Definition agrees (x y : R) : Prop := Rabs (x - y) < y / 10.

(** A field of the config file that is not set, or right. *)
Definition field_ok (set read : R) : Prop := 0 < set -> agrees set read.

(** m is the total mass of the particles within r of o. *)
Inductive mass_within (o : vec3) (r : R) : list (vec3 * R) -> R -> Prop :=
| mw_nil : mass_within o r [] 0
| mw_in x m l t : sqrt (dist2_3 x o) <= r -> mass_within o r l t -> mass_within o r ((x, m) :: l) (m + t)
| mw_out x m l t : r < sqrt (dist2_3 x o) -> mass_within o r l t -> mass_within o r ((x, m) :: l) t.

(** ** Proofs *)
Lemma almost_eq_spec x y : check_almost_eq x y = true <-> agrees x y.
Proof. apply Rltb_true. Qed.

Lemma header_check_spec set read msg failed failed0 : header_check set read msg failed = failed0 -> (failed0 = [] <-> failed = [] /\ field_ok set read).
Proof.
  intros <-. unfold header_check, field_ok. destruct (Rltb 0 set) eqn:E1; cbn [andb].
  - apply Rltb_true in E1. destruct (check_almost_eq set read) eqn:E2; cbn [negb].
    + apply almost_eq_spec in E2. tauto.
    + assert (~ agrees set read) by (rewrite <- almost_eq_spec; congruence). split; [intros H'; apply app_eq_nil in H'; destruct H'; discriminate|intros (_ & H'); elim H; auto].
  - apply Rltb_false in E1. split; [intros ->; split; [reflexivity|lra]|tauto].
Qed.

Lemma found_spec allowed m : forall b, fold_left (fun found mm => found || check_almost_eq m mm) allowed b = true <-> b = true \/ exists mm, In mm allowed /\ agrees m mm.
Proof.
  induction allowed as [|mm allowed IH]; intros b; cbn [fold_left]; [split; [auto|intros [H|(? & [] & _)]; exact H]|].
  rewrite IH, Bool.orb_true_iff, almost_eq_spec. split.
  - intros [[H|H]|(x & Hx & H)]; [now left|right; exists mm; cbn; auto|right; exists x; cbn; auto].
  - intros [H|(x & [<-|Hx] & H)]; [now left; left|left; now right|right; eauto].
Qed.

Lemma failure_mass_spec allowed ms : Forall (fun m => m <> -1) ms -> (failure_mass allowed ms = -1 <-> forall m, In m ms -> exists mm, In mm allowed /\ agrees m mm).
Proof.
  induction ms as [|m ms IH]; intros Hm; cbn [failure_mass]; [split; [intros _ ? []|reflexivity]|]. inversion Hm as [|? ? H1 H2]; subst.
  destruct (fold_left _ allowed false) eqn:E.
  - rewrite IH by exact H2. apply found_spec in E. destruct E as [E|E]; [discriminate|]. split; [intros H x [<-|Hx]; [exact E|auto]|intros H x Hx; apply H; now right].
  - split; [intros ->; congruence|]. intros H. destruct (H m (or_introl eq_refl)) as (mm & Hin & Ha). assert (E' : fold_left (fun found mm0 => found || check_almost_eq m mm0) allowed false = true) by (apply found_spec; right; eauto). congruence.
Qed.

Lemma mass_within_app o r l1 l2 t1 t2 : mass_within o r l1 t1 -> mass_within o r l2 t2 -> mass_within o r (l1 ++ l2) (t1 + t2).
Proof.
  induction 1; intros H2; cbn [app]; [now rewrite Rplus_0_l| |]; [rewrite Rplus_assoc|]; constructor; auto.
Qed.
Lemma mass_within_none o r l : (forall x m, In (x, m) l -> r < sqrt (dist2_3 x o)) -> mass_within o r l 0.
Proof. induction l as [|(x, m) l IH]; intros H; [constructor|]. apply mw_out; [apply (H x m); now left|]. apply IH. intros; apply (H x0 m0); now right. Qed.
Lemma mass_within_fun o r l : forall t t', mass_within o r l t -> mass_within o r l t' -> t = t'.
Proof. induction l as [|(x, m) l IH]; intros t t' H H'; inversion H; inversion H'; subst; try lra; [f_equal; eauto|eauto]. Qed.

Lemma dist2_nonneg (x o : vec3) : 0 <= dist2_3 x o.
Proof. unfold dist2_3. destruct x as ((x0, x1), x2), o as ((o0, o1), o2). pose proof (Rle_0_sqr (x0 - o0)). pose proof (Rle_0_sqr (x1 - o1)). pose proof (Rle_0_sqr (x2 - o2)). unfold Rsqr in *. lra. Qed.

Lemma add_mass_spec o r tw (xs : list vec3) ms : 0 <= r -> length ms = length xs -> Forall (in_half_box tw o) xs ->
  exists m, add_mass o r tw xs ms = Some m /\ mass_within o r (combine xs ms) m.
Proof.
  intros Hr HL Hx. unfold add_mass. destruct o as ((x0, y0), z0) eqn:Eo. set (body := fun (i : nat) (m : R) => _).
  assert (H : forall n, (n <= length xs)%nat -> exists m, loop n body 0 = Some m /\ mass_within (x0, y0, z0) r (firstn n (combine xs ms)) m).
  { induction n as [|n IH]; intros Hn; [exists 0; split; [reflexivity|constructor]|]. destruct (IH ltac:(lia)) as (m & E & Hm). cbn [loop]. rewrite E. unfold body.
    rewrite (rd_nth xs n (0, 0, 0)), (rd_nth ms n 0) by lia. assert (Hh : in_half_box tw (x0, y0, z0) (nth n xs (0, 0, 0))) by (rewrite Forall_forall in Hx; apply Hx, nth_In; lia).
    rewrite (KdeProofs2.firstn_snoc _ _ ((0, 0, 0), 0)) by (rewrite combine_length; lia). rewrite combine_nth by auto.
    set (v := nth n xs (0, 0, 0)) in *. set (mi := nth n ms 0). clearbody v mi. destruct v as ((x, y), z). cbv zeta. unfold in_half_box in Hh. rewrite !wrap_id by (try tauto; lra).
    change ((x - x0) * (x - x0) + (y - y0) * (y - y0) + (z - z0) * (z - z0)) with (dist2_3 (x, y, z) (x0, y0, z0)). pose proof (dist2_nonneg (x, y, z) (x0, y0, z0)) as H0.
    pose proof (sqrt_pos (dist2_3 (x, y, z) (x0, y0, z0))) as H1. pose proof (sqrt_sqrt _ H0) as H2. set (d := dist2_3 (x, y, z) (x0, y0, z0)) in *. set (s := sqrt d) in *.
    destruct (Rleb d (r * r)) eqn:Ec; [apply Rleb_true in Ec|apply Rleb_false in Ec]; eexists; (split; [reflexivity|]).
    - apply mass_within_app; [exact Hm|]. rewrite <- (Rplus_0_r mi) at 2. apply mw_in; [|constructor]. fold d s. nra.
    - rewrite <- (Rplus_0_r m). apply mass_within_app; [exact Hm|]. apply mw_out; [|constructor]. fold d s. nra. }
  destruct (H (length xs) (le_n _)) as (m & E & Hm). exists m. split; [exact E|]. rewrite firstn_all2 in Hm by (rewrite combine_length; lia). exact Hm.
Qed.

Lemma header_check_in set read msg failed t : In t (header_check set read msg failed) <-> In t failed \/ (t = msg /\ 0 < set /\ ~ agrees set read).
Proof.
  unfold header_check. destruct (Rltb 0 set) eqn:E1; cbn [andb].
  - apply Rltb_true in E1. destruct (check_almost_eq set read) eqn:E2; cbn [negb].
    + apply almost_eq_spec in E2. tauto.
    + assert (~ agrees set read) by (rewrite <- almost_eq_spec; congruence). rewrite in_app_iff. cbn [In]. split; [intros [?|[<-|[]]]; auto|intros [?|(-> & _)]; auto].
  - apply Rltb_false in E1. split; [auto|intros [?|(_ & ? & _)]; [assumption|lra]].
Qed.

(** ** C133: the verdict *)

(** What check is given to look at: the first file of the last snapshot, the particle count, the files of the example halo's snapshot. *)
Definition wrong (c : CheckConf) (hd : CheckHeader) (ms : list R) (n : Z) (particles : list (vec3 * R)) (t : failure) : Prop :=
  match t with
  | FH0 => 0 < kc_h0 c /\ ~ agrees (kc_h0 c) (100 * kh_h100 hd)
  | FOmegaM => 0 < kc_omegaM c /\ ~ agrees (kc_omegaM c) (kh_omegaM hd)
  | FOmegaL => 0 < kc_omegaL c /\ ~ agrees (kc_omegaL c) (kh_omegaL hd)
  | FBoxWidth => 0 < kc_boxWidth c /\ ~ agrees (kc_boxWidth c) (kh_totalWidth hd)
  | FMasses => kc_masses c <> [] /\ exists m, In m ms /\ forall mm, In mm (kc_masses c) -> ~ agrees m mm
  | FCount => (0 < kc_count c)%Z /\ n <> kc_count c
  | FHalo => exists s x y z r m M, kc_halo c = [s; x; y; z; r; m] /\ mass_within (x, y, z) r particles M /\ ~ agrees m M
  end.

(** A file near the halo: masses for all particles, all in the file's region, not across the box, none exactly on the sphere. *)
Definition halo_file_ok (o : vec3) (r : R) (f : PFile) : Prop :=
  length (f_ms f) = length (f_xs f) /\ Forall (in_region (f_origin f) (f_width f)) (f_xs f) /\
  (sheet_intersect o r (f_origin f) (f_width f) (f_tw f) = true -> Forall (in_half_box (f_tw f) o) (f_xs f)) /\
  forall x, In x (f_xs f) -> sqrt (dist2_3 x o) <> r.

Lemma halo_mass_ok (o : vec3) r : 0 < r -> forall files m0 l0, (forall f, In f files -> halo_file_ok o r f) -> mass_within o r l0 m0 ->
  exists M, fold_left (fun ob f => do mass <- ob; if sheet_intersect o r (f_origin f) (f_width f) (f_tw f)
      then do m <- add_mass o r (f_tw f) (f_xs f) (f_ms f); Some (mass + m) else Some mass) files (Some m0) = Some M /\
    mass_within o r (l0 ++ flat_map (fun f => combine (f_xs f) (f_ms f)) files) M.
Proof.
  intros Hr. induction files as [|f files IH]; intros m0 l0 HF H0; cbn [fold_left flat_map]; [exists m0; split; [reflexivity|now rewrite app_nil_r]|].
  destruct (HF f (or_introl eq_refl)) as (HL & Hreg & Hh & Hne). rewrite app_assoc.
  destruct (sheet_intersect o r (f_origin f) (f_width f) (f_tw f)) eqn:Em.
  - destruct (add_mass_spec o r (f_tw f) (f_xs f) (f_ms f) (Rlt_le _ _ Hr) HL (Hh eq_refl)) as (m & E & Hm). rewrite E.
    apply IH; [intros; apply HF; now right|]. now apply mass_within_app.
  - apply IH; [intros; apply HF; now right|]. rewrite <- (Rplus_0_r m0). apply mass_within_app; [exact H0|]. apply mass_within_none. intros x m Hin. apply in_combine_l in Hin.
    rewrite Forall_forall in Hreg. specialize (Hreg x Hin). specialize (Hne x Hin). destruct (Rlt_le_dec r (sqrt (dist2_3 x o))) as [?|Hle]; [assumption|].
    rewrite (sphere_meets o r (f_origin f) (f_width f) x (f_tw f) Hr Hreg) in Em; [discriminate|]. destruct Hle; [assumption|contradiction].
Qed.

(** The failed tests are exactly the wrong ones; the run succeeds (no failed test) exactly if nothing is wrong. *)
Theorem C133_verdict : forall c hd n read snapMax f0 rest, check_config_ok c = true -> read snapMax = Some (f0 :: rest) -> Forall (fun m => m <> -1) (f_ms f0) ->
  (forall s x y z r m, kc_halo c = [s; x; y; z; r; m] -> 0 < r /\ exists files, read (Rtrunc s) = Some files /\ files <> [] /\ forall f, In f files -> halo_file_ok (x, y, z) r f) ->
  exists failed, check_run c hd (Some n) read snapMax = Some failed /\
    let particles := match kc_halo c with s :: _ => match read (Rtrunc s) with Some files => flat_map (fun f => combine (f_xs f) (f_ms f)) files | None => [] end | [] => [] end in
    (forall t, In t failed <-> wrong c hd (f_ms f0) n particles t) /\ (failed = [] <-> forall t, ~ wrong c hd (f_ms f0) n particles t).
Proof.
  intros c hd n read snapMax f0 rest Hcfg Hread Hm1 Hhalo. unfold check_run. rewrite Hread.
  set (F1 := header_checks hd c []).
  assert (H1 : forall t, In t F1 <-> (t = FH0 /\ 0 < kc_h0 c /\ ~ agrees (kc_h0 c) (100 * kh_h100 hd)) \/ (t = FOmegaM /\ 0 < kc_omegaM c /\ ~ agrees (kc_omegaM c) (kh_omegaM hd)) \/
    (t = FOmegaL /\ 0 < kc_omegaL c /\ ~ agrees (kc_omegaL c) (kh_omegaL hd)) \/ (t = FBoxWidth /\ 0 < kc_boxWidth c /\ ~ agrees (kc_boxWidth c) (kh_totalWidth hd))).
  { intros t. unfold F1, header_checks. cbv zeta. rewrite !header_check_in. rewrite (Rmult_comm (kh_h100 hd) 100). cbn [In]. tauto. }
  assert (H2 : exists F2, particle_checks (Some (f_ms f0)) (Some n) c F1 = Some F2 /\
    forall t, In t F2 <-> In t F1 \/ (t = FMasses /\ kc_masses c <> [] /\ exists m, In m (f_ms f0) /\ forall mm, In mm (kc_masses c) -> ~ agrees m mm) \/ (t = FCount /\ (0 < kc_count c)%Z /\ n <> kc_count c)).
  { unfold particle_checks.
    assert (HM : exists F, match kc_masses c with [] => Some F1 | _ => do ms <- Some (f_ms f0); Some (if Req_EM_T (failure_mass (kc_masses c) ms) (-1) then F1 else F1 ++ [FMasses]) end = Some F /\
      forall t, In t F <-> In t F1 \/ (t = FMasses /\ kc_masses c <> [] /\ exists m, In m (f_ms f0) /\ forall mm, In mm (kc_masses c) -> ~ agrees m mm)).
    { destruct (kc_masses c) as [|a l] eqn:Ek; [exists F1; split; [reflexivity|]; intros t; split; [auto|intros [?|(_ & ? & _)]; [assumption|congruence]]|]. rewrite <- Ek.
      assert (Hne : kc_masses c <> []) by congruence. eexists. split; [reflexivity|]. intros t. pose proof (failure_mass_spec (kc_masses c) (f_ms f0) Hm1) as HS.
      assert (Hex : (exists m, In m (f_ms f0) /\ forall mm, In mm (kc_masses c) -> ~ agrees m mm) <-> failure_mass (kc_masses c) (f_ms f0) <> -1).
      { rewrite HS. split; [intros (m & Hin & Hno) Hall; destruct (Hall m Hin) as (mm & Hmm & Ha); exact (Hno mm Hmm Ha)|].
        intros Hno. clear HS Hm1 Hread. induction (f_ms f0) as [|m ms IH]; [elim Hno; intros ? []|].
        assert (D : (exists mm, In mm (kc_masses c) /\ agrees m mm) \/ forall mm, In mm (kc_masses c) -> ~ agrees m mm).
        { clear. induction (kc_masses c) as [|b bs IHb]; [right; intros ? []|]. destruct (check_almost_eq m b) eqn:Eb.
          - left. exists b. split; [now left|]. now apply almost_eq_spec.
          - destruct IHb as [(mm & Hmm & Ha)|Hn]; [left; exists mm; split; [now right|exact Ha]|]. right. intros mm [<-|Hmm]; [rewrite <- almost_eq_spec; congruence|auto]. }
        destruct D as [D|D]; [|exists m; split; [now left|exact D]]. destruct IH as (m' & Hin & Hn); [|exists m'; split; [now right|exact Hn]].
        intros Hall. apply Hno. intros x [<-|Hx]; [exact D|auto]. }
      destruct (Req_EM_T (failure_mass (kc_masses c) (f_ms f0)) (-1)) as [E|E].
      - split; [auto|]. intros [?|(_ & _ & Hx)]; [assumption|]. apply Hex in Hx. contradiction.
      - rewrite in_app_iff. cbn [In]. split; [intros [?|[<-|[]]]; [now left|right; split; [reflexivity|split; [exact Hne|now apply Hex]]]|intros [?|(-> & _)]; auto]. }
    destruct HM as (F & EF & HF).
    match goal with |- exists F2, (match ?X with Some _ => _ | None => _ end) = _ /\ _ => replace X with (Some F) by (rewrite <- EF; destruct (kc_masses c); reflexivity) end.
    rewrite Z.gtb_ltb. destruct (Z.ltb_spec 0 (kc_count c)) as [Hc|Hc].
    - eexists. split; [reflexivity|]. intros t. destruct (Z.eqb_spec n (kc_count c)) as [En|En].
      + rewrite HF. split; [intros [?|?]; auto|]. intros [?|[?|(_ & _ & ?)]]; auto; contradiction.
      + rewrite in_app_iff, HF. cbn [In]. split; [intros [[?|?]|[<-|[]]]; auto|]. intros [?|[?|(-> & _)]]; auto.
    - exists F. split; [reflexivity|]. intros t. rewrite HF. split; [intros [?|?]; auto|]. intros [?|[?|(_ & ? & _)]]; auto; lia. }
  destruct H2 as (F2 & E2 & H2). rewrite E2.
  assert (H3 : exists F3, halo_checks read c F2 = Some F3 /\ forall t, In t F3 <-> In t F2 \/ (t = FHalo /\ wrong c hd (f_ms f0) n match kc_halo c with s :: _ => match read (Rtrunc s) with Some files => flat_map (fun f => combine (f_xs f) (f_ms f)) files | None => [] end | [] => [] end FHalo)).
  { unfold halo_checks, wrong. unfold check_config_ok in Hcfg. destruct (kc_halo c) as [|s [|x [|y [|z [|r [|m [|? l]]]]]]] eqn:Ek; try discriminate.
    - exists F2. split; [reflexivity|]. intros t. split; [auto|]. intros [?|(_ & ? & ? & ? & ? & ? & ? & ? & ? & _)]; [assumption|discriminate].
    - destruct (Hhalo s x y z r m eq_refl) as (Hr & files & Er & Hnf & HF). rewrite Er. destruct (halo_mass_ok (x, y, z) r Hr files 0 [] HF (mw_nil _ _)) as (M & EM & HM). cbn [app] in HM.
      destruct files as [|f fs] eqn:Ef; [congruence|]. rewrite <- Ef in *. rewrite EM. eexists. split; [reflexivity|]. intros t. destruct (check_almost_eq m M) eqn:Ea.
      + apply almost_eq_spec in Ea. split; [auto|]. intros [?|(_ & ? & ? & ? & ? & ? & ? & M' & [= <- <- <- <- <- <-] & HM' & Hn)]; [assumption|]. rewrite (mass_within_fun _ _ _ _ _ HM' HM) in Hn. contradiction.
      + assert (~ agrees m M) by (rewrite <- almost_eq_spec; congruence). rewrite in_app_iff. cbn [In]. split; [intros [?|[<-|[]]]; [now left|right; split; [reflexivity|]]|intros [?|(-> & _)]; auto].
        exists s, x, y, z, r, m, M. auto. }
  destruct H3 as (F3 & E3 & H3). exists F3. split; [exact E3|]. cbv zeta.
  assert (HA : forall t, In t F3 <-> wrong c hd (f_ms f0) n match kc_halo c with s :: _ => match read (Rtrunc s) with Some files => flat_map (fun f => combine (f_xs f) (f_ms f)) files | None => [] end | [] => [] end t).
  { intros t. rewrite H3, H2, H1. clear. destruct t; cbn [wrong]; intuition (congruence || discriminate). }
  split; [exact HA|]. split; [intros -> t Ht; apply HA in Ht; exact Ht|]. intros Hno. destruct F3 as [|t F3]; [reflexivity|]. exfalso. apply (Hno t), HA. now left.
Qed.
Print Assumptions C133_verdict.

(** A configuration with everything set, right and wrong. *)
Example C133_nonvacuous :
  let f0 := mkPFile (0, 0, 0) (100, 100, 100) 100 0 [(51, 50, 50); (50, 90, 50)] [5; 5] in let read := fun _ : Z => Some [f0] in let hd := mkCheckHeader (7 / 10) (3 / 10) (7 / 10) 100 in
  let c := fun h0 m => mkCheckConf h0 (3 / 10) (-1) 100 [5] 2 [3; 50; 50; 50; 2; m] in
  check_run (c 71 5) hd (Some 2%Z) read 9 = Some [] /\
  exists failed, check_run (c 50 9) hd (Some 2%Z) read 9 = Some failed /\ In FH0 failed /\ In FHalo failed /\ ~ In FMasses failed.
Proof.
  cbv zeta. set (f0 := mkPFile (0, 0, 0) (100, 100, 100) 100 0 [(51, 50, 50); (50, 90, 50)] [5; 5]). set (hd := mkCheckHeader (7 / 10) (3 / 10) (7 / 10) 100).
  set (c := fun h0 m => mkCheckConf h0 (3 / 10) (-1) 100 [5] 2 [3; 50; 50; 50; 2; m]).
  assert (D1 : sqrt (dist2_3 (51, 50, 50) (50, 50, 50)) = 1) by (unfold dist2_3; replace ((51 - 50) * (51 - 50) + (50 - 50) * (50 - 50) + (50 - 50) * (50 - 50)) with (1 * 1) by ring; apply sqrt_square; lra).
  assert (D2 : sqrt (dist2_3 (50, 90, 50) (50, 50, 50)) = 40) by (unfold dist2_3; replace ((50 - 50) * (50 - 50) + (90 - 50) * (90 - 50) + (50 - 50) * (50 - 50)) with (40 * 40) by ring; apply sqrt_square; lra).
  assert (HH : forall h0 m, forall s x y z r m', kc_halo (c h0 m) = [s; x; y; z; r; m'] -> 0 < r /\ exists files, (fun _ : Z => Some [f0]) (Rtrunc s) = Some files /\ files <> [] /\ forall f, In f files -> halo_file_ok (x, y, z) r f).
  { intros h0 m s x y z r m' [= <- <- <- <- <- <-]. split; [lra|]. exists [f0]. split; [reflexivity|]. split; [discriminate|]. intros f [<-|[]]. split; [reflexivity|].
    split; [repeat constructor; cbn; lra|]. split; [intros _; repeat constructor; unfold Rabs; destruct (Rcase_abs _); cbn; lra|]. intros p [<-|[<-|[]]]; [rewrite D1|rewrite D2]; lra. }
  assert (HM : mass_within (50, 50, 50) 2 (flat_map (fun f => combine (f_xs f) (f_ms f)) [f0]) 5).
  { cbn [flat_map f0 f_xs f_ms combine app]. assert (H5 : mass_within (50, 50, 50) 2 [((51, 50, 50), 5); ((50, 90, 50), 5)] (5 + 0)) by (apply mw_in; [rewrite D1; lra|]; apply mw_out; [rewrite D2; lra|constructor]).
    rewrite Rplus_0_r in H5. exact H5. }
  assert (Hms : Forall (fun m => m <> -1) (f_ms f0)) by (repeat constructor; lra).
  assert (ag : forall x y, 9 * y < 10 * x < 11 * y -> agrees x y) by (intros x y H; unfold agrees, Rabs; destruct (Rcase_abs _); lra).
  split.
  - destruct (C133_verdict (c 71 5) hd 2 (fun _ => Some [f0]) 9 f0 [] eq_refl eq_refl Hms (HH 71 5)) as (F & E & _ & H). rewrite E. f_equal. apply H.
    intros [| | | | | |]; cbn [wrong c kc_h0 kc_omegaM kc_omegaL kc_boxWidth kc_masses kc_count kc_halo hd kh_h100 kh_omegaM kh_omegaL kh_totalWidth].
    + intros (_ & Hn). apply Hn, ag. lra.
    + intros (_ & Hn). apply Hn, ag. lra.
    + lra.
    + intros (_ & Hn). apply Hn, ag. lra.
    + intros (_ & m & Hin & Hn). apply (Hn 5 (or_introl eq_refl)), ag. destruct Hin as [<-|[<-|[]]]; lra.
    + lia.
    + intros (s & x & y & z & r & m & M & [= <- <- <- <- <- <-] & Hm & Hn). rewrite (mass_within_fun _ _ _ _ _ Hm HM) in Hn. apply Hn, ag. lra.
  - destruct (C133_verdict (c 50 9) hd 2 (fun _ => Some [f0]) 9 f0 [] eq_refl eq_refl Hms (HH 50 9)) as (F & E & H & _). exists F. split; [exact E|]. cbv zeta in H. split; [|split].
    + apply H. cbn [wrong c kc_h0 hd kh_h100]. split; [lra|]. unfold agrees, Rabs. destruct (Rcase_abs _); lra.
    + apply H. cbn [wrong]. exists 3, 50, 50, 50, 2, 9, 5. split; [reflexivity|]. split; [exact HM|]. unfold agrees, Rabs. destruct (Rcase_abs _); lra.
    + intros Hin. apply H in Hin. destruct Hin as (_ & m & Hm & Hn). apply (Hn 5 (or_introl eq_refl)), ag. destruct Hm as [<-|[<-|[]]]; lra.
Qed.

(** ** C134: masses in all files *)

(** Only the first file of the last snapshot is looked at: replacing all other files, and all other snapshots, by any others does not change the
    verdict of a configuration without ExampleHalo. *)
Theorem C134_other_files_refuted : forall c hd total read read' snapMax f0 rest rest', kc_halo c = [] ->
  read snapMax = Some (f0 :: rest) -> read' snapMax = Some (f0 :: rest') -> check_run c hd total read snapMax = check_run c hd total read' snapMax.
Proof. intros c hd total read read' snapMax f0 rest rest' Hh E E'. unfold check_run, halo_checks. now rewrite E, E', Hh. Qed.
Print Assumptions C134_other_files_refuted.

(** ParticleMasses = 5, and a second file with a particle of mass 900: the check passes. *)
Example C134_nonvacuous :
  let f := fun m => mkPFile (0, 0, 0) (100, 100, 100) 100 0 [(50, 50, 50)] [m] in
  check_run (mkCheckConf (-1) (-1) (-1) (-1) [5] (-1) []) (mkCheckHeader (7 / 10) (3 / 10) (7 / 10) 100) (Some 2%Z) (fun _ => Some [f 5; f 900]) 9 = Some [].
Proof.
  cbv zeta. set (f := fun m => mkPFile (0, 0, 0) (100, 100, 100) 100 0 [(50, 50, 50)] [m]). destruct (C133_verdict (mkCheckConf (-1) (-1) (-1) (-1) [5] (-1) []) (mkCheckHeader (7 / 10) (3 / 10) (7 / 10) 100) 2 (fun _ => Some [f 5; f 900]) 9 (f 5) [f 900]) as (F & E & _ & H); try reflexivity.
  - repeat constructor; lra. - discriminate.
  - rewrite E. f_equal. apply H. intros [| | | | | |]; cbn [wrong kc_h0 kc_omegaM kc_omegaL kc_boxWidth kc_masses kc_count kc_halo]; try lra; try lia.
    + intros (_ & m & [<-|[]] & Hn). apply (Hn 5 (or_introl eq_refl)). unfold agrees, Rabs. destruct (Rcase_abs _); lra.
    + intros (? & ? & ? & ? & ? & ? & ? & ? & _). discriminate.
Qed.

(** ** C135: fields set to zero *)

(** A field set to zero (for example OmegaL = 0) is not checked at all: the verdict does not depend on the value read. *)
Theorem C135_zero_refuted : forall c hd ol total read snapMax, kc_omegaL c = 0 ->
  check_run c hd total read snapMax = check_run c (mkCheckHeader (kh_h100 hd) (kh_omegaM hd) ol (kh_totalWidth hd)) total read snapMax.
Proof.
  intros c hd ol total read snapMax E. unfold check_run. destruct (read snapMax) as [[|f fs]|]; try reflexivity.
  replace (header_checks hd c []) with (header_checks (mkCheckHeader (kh_h100 hd) (kh_omegaM hd) ol (kh_totalWidth hd)) c []); [reflexivity|].
  unfold header_checks. cbv zeta. cbn [kh_h100 kh_omegaM kh_omegaL kh_totalWidth].
  assert (Hz : forall read' l, header_check (kc_omegaL c) read' FOmegaL l = l) by (intros; unfold header_check; rewrite E, (proj2 (Rltb_false 0 0)) by lra; reflexivity).
  now rewrite !Hz.
Qed.
Print Assumptions C135_zero_refuted.

(** OmegaL = 0 in the config file, 0.7 in the snapshot: the check passes. *)
Example C135_nonvacuous :
  check_run (mkCheckConf (-1) (-1) 0 (-1) [] (-1) []) (mkCheckHeader (7 / 10) (3 / 10) (7 / 10) 100) (Some 2%Z) (fun _ => Some [mkPFile (0, 0, 0) (1, 1, 1) 1 0 [] []]) 9 = Some [].
Proof.
  rewrite (C135_zero_refuted _ _ 0) by reflexivity.
  destruct (C133_verdict (mkCheckConf (-1) (-1) 0 (-1) [] (-1) []) (mkCheckHeader (7 / 10) (3 / 10) 0 100) 2 (fun _ => Some [mkPFile (0, 0, 0) (1, 1, 1) 1 0 [] []]) 9 (mkPFile (0, 0, 0) (1, 1, 1) 1 0 [] []) []) as (F & E & _ & H); try reflexivity.
  - constructor. - discriminate.
  - cbn [kh_h100 kh_omegaM kh_totalWidth]. rewrite E. f_equal. apply H. intros [| | | | | |]; cbn [wrong kc_h0 kc_omegaM kc_omegaL kc_boxWidth kc_masses kc_count kc_halo]; try lra; try lia; [tauto|].
    intros (? & ? & ? & ? & ? & ? & ? & ? & _). discriminate.
Qed.

(** ** C136: the particle count *)

(** gotetra and ARTIO snapshots report -1 particles, so every ParticleCount is called wrong; Bolshoi snapshots report 2048 cubed, whatever is in them. *)
Theorem C136_uncounted_refuted : forall c hd read snapMax failed, (0 < kc_count c)%Z ->
  (check_run c hd gotetra_total read snapMax = Some failed -> In FCount failed) /\
  (check_run c hd artio_total read snapMax = Some failed -> In FCount failed) /\
  (kc_count c <> 2048 * 2048 * 2048 -> check_run c hd bolshoi_total read snapMax = Some failed -> In FCount failed)%Z.
Proof.
  intros c hd read snapMax failed Hc.
  assert (H : forall n, n <> kc_count c -> check_run c hd (Some n) read snapMax = Some failed -> In FCount failed).
  { intros n Hn. unfold check_run. destruct (read snapMax) as [[|f fs]|]; try discriminate. unfold particle_checks. rewrite Z.gtb_ltb. destruct (Z.ltb_spec 0 (kc_count c)) as [_|?]; [|lia]. destruct (Z.eqb_spec n (kc_count c)) as [?|_]; [contradiction|].
    assert (HH : forall F, In FCount F -> halo_checks read c F = Some failed -> In FCount failed).
    { intros F HF. unfold halo_checks. destruct (kc_halo c) as [|s [|x [|y [|z [|r [|m l]]]]]]; try discriminate; [now intros [= <-]|]. destruct (read (Rtrunc s)) as [[|g gs]|]; try discriminate.
      destruct (fold_left _ _ _) as [M|]; [|discriminate]. destruct (check_almost_eq m M); intros [= <-]; [exact HF|]. apply in_app_iff. now left. }
    destruct (kc_masses c); apply HH; apply in_app_iff; right; now left. }
  unfold gotetra_total, artio_total, bolshoi_total. split; [apply H; lia|]. split; [apply H; lia|]. intros Hb. apply H. intros E. apply Hb. now rewrite <- E.
Qed.
Print Assumptions C136_uncounted_refuted.

(** The snapshot types that count: a right ParticleCount passes (no other field set). *)
Example C136_nonvacuous : forall n f, (0 < n)%Z ->
  check_run (mkCheckConf (-1) (-1) (-1) (-1) [] n []) (mkCheckHeader 0 0 0 0) (Some n) (fun _ => Some [f]) 9 = Some [] /\
  exists failed, check_run (mkCheckConf (-1) (-1) (-1) (-1) [] n []) (mkCheckHeader 0 0 0 0) gotetra_total (fun _ => Some [f]) 9 = Some failed /\ failed = [FCount].
Proof.
  intros n f Hn. assert (Hh : header_checks (mkCheckHeader 0 0 0 0) (mkCheckConf (-1) (-1) (-1) (-1) [] n []) [] = []).
  { unfold header_checks, header_check. cbn [kc_h0 kc_omegaM kc_omegaL kc_boxWidth]. rewrite (proj2 (Rltb_false 0 (-1))) by lra. reflexivity. }
  unfold check_run, particle_checks, halo_checks, gotetra_total. rewrite Hh. cbn [kc_masses kc_count kc_halo f_ms]. rewrite Z.gtb_ltb. destruct (Z.ltb_spec 0 n) as [_|?]; [|lia]. rewrite Z.eqb_refl.
  destruct (Z.eqb_spec (-1) n) as [?|_]; [lia|]. split; [reflexivity|]. eexists. split; reflexivity.
Qed.
