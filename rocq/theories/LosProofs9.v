(** * Loading the particles of a file into a halo. *)
From Coq Require Import Reals Lra Lia ZArith List Bool Permutation.
From Verif Require Import LosModel LosSpec LoopFacts LosProofs LosProofs2 LosProofs3 LosProofs4 LosProofs5 LosProofs6 LosProofs7 LosProofs8 InterpProofs ShellProofs ShellModel.
Import List ListNotations.
Local Open Scope R_scope.

(** ** The particles of each worker *)

Lemma strided_spec fuel : forall i skip len, (0 < skip)%nat -> (len <= i + fuel)%nat ->
  forall k, In k (strided fuel i skip len) <-> (k < len)%nat /\ exists m, k = (i + m * skip)%nat.
Proof.
  induction fuel as [|fuel IH]; intros i skip len Hs Hf k; cbn [strided].
  - split; [intros []|]. intros (Hk & m & ->). lia.
  - destruct (Nat.ltb_spec i len) as [Hi|Hi].
    + cbn [In]. rewrite IH by lia. split.
      * intros [<-|(Hk & m & ->)]; [split; [exact Hi|exists 0%nat; lia]|split; [exact Hk|exists (S m); lia]].
      * intros (Hk & [|m] & Em); [left; lia|right; split; [exact Hk|exists m; lia]].
    + split; [intros []|]. intros (Hk & m & ->). lia.
Qed.

Lemma strided_nodup fuel : forall i skip len, (0 < skip)%nat -> (len <= i + fuel)%nat -> NoDup (strided fuel i skip len).
Proof.
  induction fuel as [|fuel IH]; intros i skip len Hs Hf; cbn [strided]; [constructor|].
  destruct (Nat.ltb_spec i len); [|constructor]. constructor; [|apply IH; lia].
  rewrite strided_spec by lia. intros (_ & m & Em). lia.
Qed.

(** The indices of all particles that are kept when one in sf3 is. *)
Definition kept (sf3 len : nat) : list nat := filter (fun k => (k mod sf3 =? 0)%nat) (seq 0 len).

Lemma kept_in sf3 len k : (0 < sf3)%nat -> In k (kept sf3 len) <-> (k < len)%nat /\ exists m, k = (m * sf3)%nat.
Proof.
  intros Hs. unfold kept. rewrite filter_In, in_seq. split.
  - intros (H1 & H2). split; [lia|]. apply Nat.eqb_eq in H2. exists (k / sf3)%nat.
    pose proof (Nat.div_mod k sf3 ltac:(lia)). lia.
  - intros (H1 & m & ->). split; [lia|]. apply Nat.eqb_eq. apply Nat.mod_mul. lia.
Qed.

Lemma kept_nodup sf3 len : NoDup (kept sf3 len).
Proof. apply NoDup_filter, seq_NoDup. Qed.

Definition share_of (workers sf3 len offset : nat) : list nat := strided len (offset * sf3) (workers * sf3) len.

Lemma NoDup_flat {A B} (f : A -> list B) l : NoDup l -> (forall a, In a l -> NoDup (f a)) ->
  (forall a b x, In a l -> In b l -> In x (f a) -> In x (f b) -> a = b) -> NoDup (flat_map f l).
Proof.
  induction l as [|a l IH]; intros Hl Hf Hd; cbn [flat_map]; [constructor|]. inversion Hl as [|? ? Hna Hl']; subst.
  apply NoDup_app_remove_l || idtac.
  assert (H1 : NoDup (flat_map f l)).
  { apply IH; [exact Hl'|intros; apply Hf; right; assumption|]. intros x y z Hx Hy. apply Hd; right; assumption. }
  assert (H2 : forall x, In x (f a) -> ~ In x (flat_map f l)).
  { intros x Hx Hin. apply in_flat_map in Hin. destruct Hin as (b & Hb & Hxb). apply Hna.
    rewrite (Hd a b x); auto; [left; reflexivity|right; exact Hb]. }
  assert (H3 := Hf a (or_introl eq_refl)). clear - H1 H2 H3. induction (f a) as [|x fa IHf]; [exact H1|].
  cbn [app]. inversion H3; subst. constructor.
  - rewrite in_app_iff. intros [?|Hin]; [contradiction|]. apply (H2 x); [left; reflexivity|exact Hin].
  - apply IHf; [intros y Hy; apply H2; right; exact Hy|assumption].
Qed.

(** The shares of the workers together are all kept particles, each once. *)
Lemma shares_partition workers sf3 len : (0 < workers)%nat -> (0 < sf3)%nat ->
  Permutation (flat_map (share_of workers sf3 len) (seq 0 workers)) (kept sf3 len).
Proof.
  intros Hw Hs. assert (Hskip : (0 < workers * sf3)%nat) by nia. apply NoDup_Permutation.
  - apply NoDup_flat; [apply seq_NoDup|intros a _; apply strided_nodup; lia|].
    intros a b x Ha Hb Hxa Hxb. apply in_seq in Ha, Hb. unfold share_of in *.
    apply (strided_spec _ _ _ _ Hskip) in Hxa; [|lia]. apply (strided_spec _ _ _ _ Hskip) in Hxb; [|lia].
    destruct Hxa as (_ & m & ->), Hxb as (_ & m' & E).
    assert (E2 : ((a + m * workers) * sf3 = (b + m' * workers) * sf3)%nat) by nia.
    apply Nat.mul_cancel_r in E2; [|lia]. assert (m = m') by nia. subst m'. lia.
  - apply kept_nodup.
  - intros k. rewrite kept_in by exact Hs. rewrite in_flat_map. split.
    + intros (a & Ha & Hk). apply in_seq in Ha. apply (strided_spec _ _ _ _ Hskip) in Hk; [|lia].
      destruct Hk as (Hk & m & ->). split; [exact Hk|]. exists (a + m * workers)%nat. nia.
    + intros (Hk & m & ->). exists (m mod workers)%nat. split; [apply in_seq; pose proof (Nat.mod_upper_bound m workers); lia|].
      apply (strided_spec _ _ _ _ Hskip); [lia|]. split; [exact Hk|]. exists (m / workers)%nat.
      pose proof (Nat.div_mod m workers ltac:(lia)). nia.
Qed.

(** ** One worker *)

Definition particle_density (sf3 : nat) (rad rhoM m : R) : R := m * INR sf3 / (4 * PI / 3 * rad * rad * rad) / rhoM.

Definition pick (xs : list vec) (ms : list R) (rad : R) (sf3 : nat) (rhoM : R) (k : nat) : sphere :=
  (nth k xs (0, 0, 0), rad, particle_density sf3 rad rhoM (nth k ms 0)).
Definition picks (xs : list vec) (ms : list R) (intr : list bool) (rad : R) (sf3 : nat) (rhoM : R) (ks : list nat) : list sphere :=
  map (pick xs ms rad sf3 rhoM) (filter (fun k => nth k intr false) ks).

Lemma halo_inserts_app a : forall h b, halo_inserts h (a ++ b) = do h' <- halo_inserts h a; halo_inserts h' b.
Proof.
  induction a as [|((v, r), rho) a IH]; intros h b; cbn [halo_inserts app]; [reflexivity|].
  destruct (halo_insert h v r rho); [apply IH|reflexivity].
Qed.

Lemma fold_none {A} (f : A -> nat -> option A) l : fold_left (fun oh i => do h <- oh; f h i) l None = None.
Proof. induction l; [reflexivity|exact IHl]. Qed.

Lemma chan_load_picks h xs ms intr offset workers sf3 rad rhoM :
  length intr = length xs -> (length xs <= length ms)%nat ->
  (0 < workers)%nat -> (0 < sf3)%nat ->
  chan_load h xs ms intr offset workers sf3 rad rhoM = halo_inserts h (picks xs ms intr rad sf3 rhoM (share_of workers sf3 (length xs) offset)).
Proof.
  intros L1 L2 Hw Hs. unfold chan_load, share_of, picks.
  assert (Hin : forall k, In k (strided (length xs) (offset * sf3) (workers * sf3) (length xs)) -> (k < length xs)%nat).
  { intros k Hk. apply strided_spec in Hk; [apply Hk|nia|lia]. }
  set (l := strided _ _ _ _) in *. clearbody l.
  assert (Hgen : forall h, fold_left (fun oh i => do h <- oh; do b <- rd intr i;
    if (b : bool) then do x <- rd xs i; do m <- rd ms i; halo_insert h x rad (m * INR sf3 / (4 * PI / 3 * rad * rad * rad) / rhoM) else Some h) l (Some h) =
    halo_inserts h (map (pick xs ms rad sf3 rhoM) (filter (fun k => nth k intr false) l))); [|apply Hgen].
  clear h. induction l as [|k l IH]; intros h; [reflexivity|]. cbn [fold_left filter].
  rewrite (rd_nth intr k false) by (rewrite L1; apply Hin; left; reflexivity).
  assert (Hin' : forall k, In k l -> (k < length xs)%nat) by (intros; apply Hin; right; assumption).
  destruct (nth k intr false).
  - rewrite (rd_nth xs k (0, 0, 0)) by (apply Hin; left; reflexivity).
    rewrite (rd_nth ms k 0) by (apply Nat.lt_le_trans with (2 := L2); apply Hin; left; reflexivity).
    cbn [map halo_inserts]. unfold pick at 1. fold (particle_density sf3 rad rhoM (nth k ms 0)).
    destruct (halo_insert h (nth k xs (0, 0, 0)) rad (particle_density sf3 rad rhoM (nth k ms 0))) as [h'|]; [apply IH; exact Hin'|].
    apply (fold_none (fun h i => do b <- rd intr i; if (b : bool) then do x <- rd xs i; do m <- rd ms i; halo_insert h x rad (m * INR sf3 / (4 * PI / 3 * rad * rad * rad) / rhoM) else Some h)).
  - apply IH; exact Hin'.
Qed.

(** ** All workers *)

Lemma fold_joins ws : forall h, fold_left (fun oh w => do h <- oh; halo_join1 h w) ws (Some h) = halo_joins h ws.
Proof.
  induction ws as [|w ws IH]; intros h; cbn [fold_left halo_joins]; [reflexivity|].
  destruct (halo_join1 h w); [apply IH|]. clear. induction ws; [reflexivity|exact IHws].
Qed.

Lemma works_mapo h (f : nat -> list sphere) ws : good_core h -> (0 < h_bins h)%nat -> 0 < h_rMin h < h_rMax h ->
  Forall (worker_halo h) ws -> forall a,
  exists ws1 ws2, mapo (halo_split1 h) ws = Some ws1 /\ length ws1 = length ws /\
    mapo (fun iw : nat * Halo => halo_inserts (snd iw) (f (fst iw))) (combine (seq a (length ws1)) ws1) = Some ws2 /\
    Forall2 (fun w (j : Halo * list sphere) => worked h w (snd j)) ws2 (combine ws (map f (seq a (length ws)))).
Proof.
  intros G Hb Hr H. induction H as [|w ws Hw Hrest IH]; intros a; cbn [mapo].
  - exists [], []. repeat (split; [reflexivity|]). constructor.
  - destruct (one_work h w (f a) G Hb Hr Hw) as (w1 & w2 & E1 & E2 & W). rewrite E1.
    destruct (IH (S a)) as (ws1 & ws2 & -> & L & E & F). exists (w1 :: ws1), (w2 :: ws2). split; [reflexivity|].
    split; [cbn; congruence|]. cbn [length seq combine mapo fst snd]. rewrite E2, E. split; [reflexivity|].
    cbn [map combine]. constructor; [exact W|exact F].
Qed.

Lemma map_snd_combine {A B} (a : list A) (b : list B) : length a = length b -> map snd (combine a b) = b.
Proof. revert b. induction a as [|x a IH]; intros [|y b] H; cbn in *; try discriminate; [reflexivity|]. f_equal. apply IH. lia. Qed.

Lemma density_perm lo dr i j a b : Permutation a b -> density lo dr i j a = density lo dr i j b.
Proof.
  intros H. induction H as [|(((s, e), r), k) a b H IH|(((s, e), r), k) (((s', e'), r'), k') l|]; cbn [density]; try lra.
Qed.

Lemma flat_map_perm {A B} (f : A -> list B) a b : Permutation a b -> Permutation (flat_map f a) (flat_map f b).
Proof.
  intros H. induction H as [|x a b H IH|x y l|]; cbn [flat_map].
  - constructor.
  - apply Permutation_app_head; exact IH.
  - rewrite !app_assoc. apply Permutation_app_tail, Permutation_app_comm.
  - eapply perm_trans; eassumption.
Qed.

Lemma added_perm h a b ring i j : Permutation a b -> added h a ring i j = added h b ring i j.
Proof. intros H. unfold added. destruct (ring_rots h ring) as [(norm, rot)|]; [|reflexivity]. apply density_perm, flat_map_perm, H. Qed.

Lemma filter_flat {A B} (p : B -> bool) (f : A -> list B) l : filter p (flat_map f l) = flat_map (fun a => filter p (f a)) l.
Proof. induction l; cbn; [reflexivity|]. now rewrite filter_app, IHl. Qed.
Lemma map_flat {A B C} (g : B -> C) (f : A -> list B) l : map g (flat_map f l) = flat_map (fun a => map g (f a)) l.
Proof. induction l; cbn; [reflexivity|]. now rewrite map_app, IHl. Qed.
Lemma Perm_filter {A} (p : A -> bool) a b : Permutation a b -> Permutation (filter p a) (filter p b).
Proof.
  intros H. induction H as [|x a b H IH|x y l|]; cbn [filter]; auto.
  - destruct (p x); auto.
  - destruct (p x), (p y); auto. apply perm_swap.
  - eapply perm_trans; eassumption.
Qed.

Lemma Forall2_length {A B} (P : A -> B -> Prop) a b : Forall2 P a b -> length a = length b.
Proof. intros H. induction H; cbn; congruence. Qed.

Theorem load_sphere_vecs_spec h ws xs ms tw sf3 rKernel rMaxMult rhoM :
  good_core h -> (0 < h_bins h)%nat -> 0 < h_rMin h < h_rMax h -> Forall (worker_halo h) ws ->
  (length xs <= length ms)%nat -> (0 < sf3)%nat ->
  let rad := h_rMax h * rKernel / rMaxMult in
  let xs' := transform (h_origin h) tw xs in
  exists h' ws', load_sphere_vecs h ws xs ms tw (length ws + 1) sf3 rKernel rMaxMult rhoM = Some (h', ws', xs') /\ good_core h' /\
    length ws' = length ws /\ Forall (fun w => good_core w /\ h_rMin w = h_rMin h /\ h_rMax w = h_rMax h) ws' /\
    adds h h' (added h (picks xs' ms (map (halo_intersect1 h rad) xs') rad sf3 rhoM (kept sf3 (length xs)))).
Proof.
  intros G Hb Hr Hws Hms Hs rad xs'. unfold load_sphere_vecs. rewrite Nat.eqb_refl. cbn [negb]. fold rad xs'.
  assert (Lx : length xs' = length xs). { unfold xs', transform. destruct (h_origin h) as ((x0, y0), z0). apply map_length. }
  set (intr := map (halo_intersect1 h rad) xs'). assert (Li : length intr = length xs') by apply map_length.
  set (W := (length ws + 1)%nat).
  set (f := fun k => picks xs' ms intr rad sf3 rhoM (share_of W sf3 (length xs') k)).
  destruct (works_mapo h f ws G Hb Hr Hws 0) as (ws1 & ws2 & -> & L1 & E2 & F).
  assert (Hw : forall h k, chan_load h xs' ms intr k W sf3 rad rhoM = halo_inserts h (f k)).
  { intros. apply chan_load_picks; auto; unfold W; lia. }
  assert (E3 : mapo (fun iw : nat * Halo => chan_load (snd iw) xs' ms intr (fst iw) W sf3 rad rhoM) (combine (seq 0 (length ws1)) ws1) = Some ws2).
  { rewrite <- E2. clear -Hw. induction (combine (seq 0 (length ws1)) ws1) as [|a l IH]; cbn [mapo]; [reflexivity|]. rewrite Hw, IH. reflexivity. }
  rewrite E3, Hw. destruct (halo_inserts_adds h (f (W - 1)%nat) G) as (h1 & -> & G1 & A1).
  rewrite fold_joins. destruct (halo_joins_spec h ws2 _ F h1 _ G A1 G1) as (h2 & -> & G2 & A2).
  exists h2, ws2. split; [reflexivity|]. split; [exact G2|]. split.
  { apply Forall2_length in F. rewrite F, combine_length, map_length, seq_length. lia. }
  split. { clear -F. induction F as [|w1 j1 l1 l2 Hw F IH]; constructor; [|exact IH]. destruct Hw as (? & _ & _ & _ & ? & ? & _). auto. }
  apply adds_ext with (2 := A2). intros ring p i j Ep Hj.
  rewrite map_snd_combine by (rewrite map_length, seq_length; reflexivity). rewrite <- added_app. apply added_perm.
  rewrite <- flat_map_concat_map. apply perm_trans with (flat_map f (seq 0 W)).
  - unfold W at 2. rewrite seq_app, flat_map_app. cbn [seq plus flat_map]. rewrite app_nil_r.
    replace (W - 1)%nat with (length ws) by (unfold W; lia). apply Permutation_app_comm.
  - unfold f, picks. rewrite <- map_flat, <- filter_flat. rewrite <- Lx. apply Permutation_map, Perm_filter, shares_partition; unfold W; lia.
Qed.

(** ** Particles outside the shell *)

Lemma chord_outside s e (inside : R -> Prop) r1 r2 lo hi : 0 < r1 -> 0 < r2 -> ordered s e -> log_chord inside s e ->
  (forall t, 0 < t -> inside t -> t <= r1) \/ (forall t, 0 < t -> inside t -> r2 <= t) -> ln r1 <= lo -> lo <= hi -> hi <= ln r2 ->
  covered s e lo hi = 0.
Proof.
  intros Hr1 Hr2 Ho Hc Hout Hlo Hlh Hhi. destruct e as [e|]; [|reflexivity].
  destruct Hout as [Hout|Hout].
  - assert (He : e <= ln r1).
    { assert (Hi : inside (exp e)) by (apply Hc; split; [destruct s; cbn in Ho; auto|lra]).
      apply Hout in Hi; [|apply exp_pos]. rewrite <- (ln_exp e). destruct Hi as [Hi| ->]; [left; apply ln_increasing; [apply exp_pos|exact Hi]|lra]. }
    destruct s as [s|]; cbn [covered]; unfold Rmax, Rmin; rcase; lra.
  - destruct s as [s|].
    + assert (Hs : ln r2 <= s).
      { cbn in Ho. assert (Hi : inside (exp s)) by (apply Hc; split; lra).
        apply Hout in Hi; [|apply exp_pos]. rewrite <- (ln_exp s). destruct Hi as [Hi| <-]; [left; apply ln_increasing; [exact Hr2|exact Hi]|lra]. }
      cbn [covered]; unfold Rmax, Rmin; rcase; lra.
    + exfalso. set (x := Rmin e (ln r2) - 1).
      assert (Hi : inside (exp x)) by (apply Hc; split; [exact I|unfold x, Rmin; destruct (Rle_dec e (ln r2)); lra]).
      apply Hout in Hi; [|apply exp_pos]. assert (x < ln r2) by (unfold x, Rmin; destruct (Rle_dec e (ln r2)); lra).
      apply exp_increasing in H. rewrite exp_ln in H by exact Hr2. lra.
Qed.

Lemma ray_sphere_bounds o u c radius t : dot3 u u = 1 -> 0 <= radius -> 0 < t -> inside3 o u c radius t ->
  sqrt (dist2_3 c o) - radius <= t <= sqrt (dist2_3 c o) + radius.
Proof.
  intros Hu Hr Ht Hin. destruct o as ((x0, y0), z0), u as ((a, b), d), c as ((x, y), z). unfold inside3, dist2_3, along, dot3 in *.
  set (p := x - x0). set (q := y - y0). set (r := z - z0).
  assert (E : (x0 + t * a - x) * (x0 + t * a - x) + (y0 + t * b - y) * (y0 + t * b - y) + (z0 + t * d - z) * (z0 + t * d - z) =
    t * t - 2 * t * (a * p + b * q + d * r) + (p * p + q * q + r * r)) by (unfold p, q, r; rewrite <- (Rmult_1_r (t * t)), <- Hu; ring).
  rewrite E in Hin. set (D2 := p * p + q * q + r * r) in *.
  assert (HD2 : 0 <= D2) by (unfold D2; nra).
  pose proof (sqrt_pos D2) as HD. pose proof (sqrt_sqrt D2 HD2) as HDD. set (D := sqrt D2) in *.
  assert (Hcs : a * p + b * q + d * r <= D).
  { apply Rsqr_incr_0_var; [|exact HD]. unfold Rsqr. rewrite HDD. unfold D2.
    assert (Hl : (a * p + b * q + d * r) * (a * p + b * q + d * r) + ((a * q - b * p) * (a * q - b * p) + (a * r - d * p) * (a * r - d * p) + (b * r - d * q) * (b * r - d * q)) =
      (a * a + b * b + d * d) * (p * p + q * q + r * r)) by ring.
    rewrite Hu in Hl. pose proof (Rle_0_sqr (a * q - b * p)). pose proof (Rle_0_sqr (a * r - d * p)). pose proof (Rle_0_sqr (b * r - d * q)). unfold Rsqr in *. lra. }
  assert (Hsq : (t - D) * (t - D) <= radius * radius) by nra.
  assert (- radius <= t - D <= radius); [|lra].
  split; nra.
Qed.

Lemma pruned o u c radius rMin rMax lo hi s e h :
  h_origin h = o -> h_rMin h = rMin -> h_rMax h = rMax -> 0 < rMin < rMax -> 0 < radius -> dot3 u u = 1 ->
  halo_intersect1 h radius c = false -> c <> o -> ordered s e -> log_chord (inside3 o u c radius) s e ->
  ln rMin <= lo -> lo <= hi -> hi <= ln rMax -> covered s e lo hi = 0.
Proof.
  intros Eo E1 E2 Hr Hrad Hu Hint Hne Ho Hc Hlo Hlh Hhi.
  apply chord_outside with (inside := inside3 o u c radius) (r1 := rMin) (r2 := rMax); auto; [lra|lra|].
  assert (HB : forall t, 0 < t -> inside3 o u c radius t -> sqrt (dist2_3 c o) - radius <= t <= sqrt (dist2_3 c o) + radius)
    by (intros; apply (ray_sphere_bounds o u c radius t); auto; lra).
  unfold halo_intersect1 in Hint. rewrite E1, E2, Eo in Hint.
  assert (HD : 0 < dist2_3 c o).
  { destruct c as ((x, y), z), o as ((x0, y0), z0). unfold dist2_3.
    pose proof (Rle_0_sqr (x - x0)) as A. pose proof (Rle_0_sqr (y - y0)) as B. pose proof (Rle_0_sqr (z - z0)) as C. unfold Rsqr in *.
    assert (H : 0 <= (x - x0) * (x - x0) + (y - y0) * (y - y0) + (z - z0) * (z - z0)) by lra. destruct H as [H|H]; [exact H|].
    exfalso. apply Hne. assert (x - x0 = 0) by (apply Rsqr_0_uniq; unfold Rsqr; lra). assert (y - y0 = 0) by (apply Rsqr_0_uniq; unfold Rsqr; lra).
    assert (z - z0 = 0) by (apply Rsqr_0_uniq; unfold Rsqr; lra). apply f_equal2; [apply f_equal2|]; lra. }
  set (rm := if Rltb (rMin - radius) 0 then 0 else rMin - radius) in *.
  assert (Hrm : 0 <= rm /\ (rm = 0 \/ rm = rMin - radius)) by (unfold rm; destruct (Rltb_spec (rMin - radius) 0); lra).
  assert (Hcase : dist2_3 c o <= rm * rm \/ (rMax + radius) * (rMax + radius) <= dist2_3 c o).
  { destruct c as ((x, y), z), o as ((x0, y0), z0). cbv zeta in Hint. unfold dist2_3.
    destruct (Rltb_spec (rm * rm) ((x - x0) * (x - x0) + (y - y0) * (y - y0) + (z - z0) * (z - z0))); cbn [andb] in Hint; [|left; lra].
    destruct (Rltb_spec ((x - x0) * (x - x0) + (y - y0) * (y - y0) + (z - z0) * (z - z0)) ((rMax + radius) * (rMax + radius))); [discriminate|right; lra]. }
  destruct Hcase as [Hs|Hs].
  - left. intros t Ht Hin. apply HB in Hin; [|exact Ht].
    assert (sqrt (dist2_3 c o) <= rm). { rewrite <- (sqrt_square rm) by lra. apply sqrt_le_1_alt, Hs. }
    destruct Hrm as (_ & [E0|E0]); [rewrite E0 in Hs; lra|lra].
  - right. intros t Ht Hin. apply HB in Hin; [|exact Ht].
    assert (rMax + radius <= sqrt (dist2_3 c o)). { rewrite <- (sqrt_square (rMax + radius)) by lra. apply sqrt_le_1_alt, Hs. }
    lra.
Qed.
