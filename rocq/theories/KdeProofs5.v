(** * Proofs for the filter: attempts and rings. *)
From Coq Require Import Lra Lia.
From Verif Require Import GoBase GoBaseFacts RealBase LoopBase LoopFacts InterpModel InterpSpec InterpProofs KdeModel KdeSpec KdeSpec2 MatSpec MatProofs RockstarProofs
  KdeProofs KdeProofs2 KdeProofs3 KdeProofs4.
Import List ListNotations.
Local Open Scope R_scope.

Lemma selected_filter {A} (P : A -> Prop) (b : A -> bool) l : (forall a, In a l -> (b a = true <-> P a)) -> selected P l (filter b l).
Proof.
  induction l as [|a l IH]; intros H; cbn [filter]; [constructor|]. pose proof (H a (or_introl eq_refl)) as Ha.
  destruct (b a); constructor; try (now apply Ha); try (apply IH; intros; apply H; now right). intros C. apply Ha in C. discriminate.
Qed.
Lemma selected_unique {A} (P : A -> Prop) l : forall o o', selected P l o -> selected P l o' -> o = o'.
Proof.
  induction l as [|a l IH]; intros o o' H H'; inversion H; inversion H'; subst; try reflexivity; try contradiction.
  - f_equal. now apply IH.
  - now apply IH.
Qed.
Lemma selected_ext {A} (P Q : A -> Prop) l o : (forall a, In a l -> (P a <-> Q a)) -> selected P l o -> selected Q l o.
Proof.
  intros H Hs. induction Hs; [constructor| |].
  - constructor; [apply H; [now left|assumption]|]. apply IHHs. intros; apply H; now right.
  - constructor; [intros C; apply H0, H; [now left|assumption]|]. apply IHHs. intros; apply H; now right.
Qed.
Lemma selected_in {A} (P : A -> Prop) l o : selected P l o -> forall a, In a o <-> In a l /\ P a.
Proof.
  induction 1 as [|a l o Ha Hs IH|a l o Ha Hs IH]; intros b.
  - cbn. tauto.
  - cbn. rewrite IH. split; [intros [->|[]]; auto|]. intros [[->|Hb] Hp]; auto.
  - cbn. rewrite IH. split; [intros []; auto|]. intros [[->|Hb] Hp]; [contradiction|auto].
Qed.

Lemma filter_idx (f : R -> R) dr pts :
  let idxs := filter (near f dr (map fst pts) (map snd pts)) (seq 0 (length pts)) in
  exists kept, selected (fun p => Rabs (f (snd p) - fst p) < dr / 2) pts kept /\
    map (fun i => nth i (map fst pts) 0) idxs = map fst kept /\ map (fun i => nth i (map snd pts) 0) idxs = map snd kept.
Proof.
  cbv zeta. exists (filter (fun p => Rltb (Rabs (f (snd p) - fst p)) (dr / 2)) pts). split.
  { apply selected_filter. intros a _. now rewrite Rltb_true. }
  assert (G : forall l i0 (fs ss : list R), (forall j, (j < length l)%nat -> nth (i0 + j) fs 0 = nth j (map fst l) 0 /\ nth (i0 + j) ss 0 = nth j (map snd l) 0) ->
     map (fun i => nth i fs 0) (filter (near f dr fs ss) (seq i0 (length l))) = map fst (filter (fun p => Rltb (Rabs (f (snd p) - fst p)) (dr / 2)) l) /\
     map (fun i => nth i ss 0) (filter (near f dr fs ss) (seq i0 (length l))) = map snd (filter (fun p => Rltb (Rabs (f (snd p) - fst p)) (dr / 2)) l)).
  { induction l as [|p l IH]; intros i0 fs ss H; [split; reflexivity|]. cbn [length seq filter].
    destruct (H O ltac:(cbn; lia)) as [H1 H2]. rewrite Nat.add_0_r in H1, H2. cbn [map nth] in H1, H2.
    destruct (IH (S i0) fs ss) as [I1 I2].
    { intros j Hj. destruct (H (S j) ltac:(cbn; lia)) as [A B]. rewrite Nat.add_succ_r in A, B. cbn [map nth] in A, B. auto. }
    assert (En : near f dr fs ss i0 = Rltb (Rabs (f (snd p) - fst p)) (dr / 2)) by (unfold near; now rewrite H1, H2). rewrite En. destruct (Rltb (Rabs (f (snd p) - fst p)) (dr / 2)); cbn [map]; rewrite ?H1, ?H2, I1, I2; split; reflexivity. }
  apply G. intros j _. auto.
Qed.

Lemma ok_pairs_ring oks : forall rs phis, length rs = length oks -> length phis = length oks -> ok_pairs oks rs phis = Some (ring_points oks rs phis).
Proof.
  unfold ring_points. induction oks as [|b oks IH]; intros rs phis Lr Lp; [reflexivity|]. destruct rs as [|r rs]; [discriminate|]. destruct phis as [|p phis]; [discriminate|].
  cbn [length] in *. cbn [ok_pairs combine filter]. rewrite IH by lia. destruct b; reflexivity.
Qed.

Lemma map_snd_in {A B} (l : list (A * B)) b : In b (map snd l) -> exists a, In (a, b) l.
Proof. intros H. apply in_map_iff in H. destruct H as ([a b'] & E & H). cbn in E. subst. eauto. Qed.

Definition good_points (pts : list (R * R)) : Prop := forall r phi, In (r, phi) pts -> 0 < r /\ 0 <= phi < 2 * PI.
Lemma good_valid pts : pts <> [] -> good_points pts -> valid_points (map fst pts) (map snd pts).
Proof.
  intros Hne Hg. split; [destruct pts; [easy|discriminate]|]. split; [now rewrite !map_length|]. split.
  - intros r Hr. apply in_map_iff in Hr. destruct Hr as ([r' phi] & E & Hin). cbn in E. subst. now apply (Hg r phi).
  - intros p Hp. apply map_snd_in in Hp. destruct Hp as (r & Hin). now apply (Hg r p).
Qed.

Lemma tree_anchors rs phis h high splits kt level : tree_ok rs phis h high splits kt -> (level <= splits)%nat ->
  exists radii f, anchors kt level radii f /\ forall j, (j < 2 ^ level)%nat -> get_finest (kt_conn kt) j level = Some (nth j radii 0).
Proof.
  intros H Hl. destruct (tree_curve _ _ _ _ _ _ level H Hl) as (sp & f & radii & E1 & E2 & L & Hc & Hev). exists radii, f. split.
  - split; [exact E2|]. split; [exact L|]. split; [exact Hc|]. exists sp. auto.
  - destruct (get_conn_maxes_ok (kt_ths kt) (kt_conn kt) level (to_rows _ _ _ _ _ _ H)) as (radii' & E & _ & Hf).
    + rewrite (to_len _ _ _ _ _ _ H). lia.
    + rewrite (to_len _ _ _ _ _ _ H). apply (to_angles _ _ _ _ _ _ H).
    + assert (radii' = radii) by congruence. now subst.
Qed.

(** One attempt: either the tree panics, or what FilterNearby keeps is what [attempt] says. *)
Lemma attempt_step pts levels h : pts <> [] -> good_points pts -> 0 < h ->
  (new_kde_tree (map fst pts) (map snd pts) levels h = None) \/
  (exists kt kept idxs, new_kde_tree (map fst pts) (map snd pts) levels h = Some kt /\ attempt pts levels h kept /\
     filter_nearby kt (map fst pts) (map snd pts) levels (kt_h kt) = Some (map fst kept, map snd kept, idxs)).
Proof.
  intros Hne Hg Hh. pose proof (good_valid pts Hne Hg) as Hv.
  destruct (new_tree_spec _ _ levels h Hv Hh) as (f0 & _ & [[_ En]|[_ (kt & En & Hok)]]); [now left|]. right.
  destruct (tree_anchors _ _ _ _ _ _ levels Hok (le_n _)) as (radii & f & Hanc & _). pose proof Hanc as (_ & _ & _ & sp & Esp & Hev).
  destruct Hv as (_ & HL & _ & Hp).
  pose proof (filter_nearby_ok kt sp f (map fst pts) (map snd pts) levels (kt_h kt) Esp Hev HL ltac:(intros t Ht; destruct (Hp t Ht); lra)) as E. cbv zeta in E.
  rewrite (to_h _ _ _ _ _ _ Hok) in E. rewrite map_length in E. destruct (filter_idx f h pts) as (kept & Hs & E1 & E2). rewrite E1, E2 in E.
  exists kt, kept. eexists. split; [exact En|]. split; [exists kt, radii, f; auto|]. rewrite (to_h _ _ _ _ _ _ Hok). exact E.
Qed.

(** What an attempt keeps is determined: two curves of the same tree agree on a turn. *)
Lemma attempt_unique pts levels h a b : good_points pts -> attempt pts levels h a -> attempt pts levels h b -> a = b.
Proof.
  intros Hg (kt & r1 & f1 & E1 & (_ & _ & _ & sp1 & S1 & H1) & A1) (kt' & r2 & f2 & E2 & (_ & _ & _ & sp2 & S2 & H2) & A2).
  assert (kt' = kt) by congruence. subst kt'. assert (sp2 = sp1) by congruence. subst sp2.
  apply (selected_unique (fun p => Rabs (f1 (snd p) - fst p) < h / 2) pts); [exact A1|].
  apply (selected_ext (fun p => Rabs (f2 (snd p) - fst p) < h / 2)); [|exact A2]. intros [r phi] Hin. destruct (Hg r phi Hin) as [_ Hp]. cbn [fst snd].
  assert (f2 phi = f1 phi). { specialize (H1 phi ltac:(lra)). specialize (H2 phi ltac:(lra)). congruence. } rewrite H. tauto.
Qed.

Definition width (h : R) (k : nat) : R := h * (11 / 10) ^ k.

Lemma attempts_result pts levels h : pts <> [] -> good_points pts -> 0 < h -> forall rounds j,
  (1 <= rounds)%nat ->
  let res := filter_attempts rounds (map fst pts) (map snd pts) levels h ((11 / 10) ^ j) [] [] in
  (res = None /\ exists k, (j <= k < j + rounds)%nat /\ new_kde_tree (map fst pts) (map snd pts) levels (width h k) = None /\
      forall i, (j <= i < k)%nat -> attempt pts levels (width h i) []) \/
  (exists k kept, res = Some (map fst kept, map snd kept) /\ (j <= k < j + rounds)%nat /\ attempt pts levels (width h k) kept /\
      (kept <> [] \/ k = (j + rounds - 1)%nat) /\ forall i, (j <= i < k)%nat -> attempt pts levels (width h i) []).
Proof.
  intros Hne Hg Hh. induction rounds as [|r IH]; intros j Hr; [lia|]. cbv zeta. cbn [filter_attempts].
  assert (Hw : 0 < h * (11 / 10) ^ j) by (apply Rmult_lt_0_compat; [exact Hh|apply pow_lt; lra]).
  destruct (attempt_step pts levels (h * (11 / 10) ^ j) Hne Hg Hw) as [En|(kt & kept & idxs & En & Ha & Ef)].
  - rewrite En. left. split; [reflexivity|]. exists j. split; [lia|]. split; [exact En|]. intros; lia.
  - rewrite En, Ef. destruct r as [|r].
    + right. exists j, kept. cbn [filter_attempts]. split; [reflexivity|]. split; [lia|]. split; [exact Ha|]. split; [right; lia|]. intros; lia.
    + destruct kept as [|p kept].
      * cbn [map]. replace ((11 / 10) ^ j * (11 / 10)) with ((11 / 10) ^ S j) by (cbn [pow]; ring).
        destruct (IH (S j) ltac:(lia)) as [(E & k & Hk & Hn & Hi)|(k & kp & E & Hk & Hat & Hnk & Hi)].
        -- left. split; [exact E|]. exists k. split; [lia|]. split; [exact Hn|]. intros i Hij. destruct (Nat.eq_dec i j) as [->|]; [exact Ha|]. apply Hi. lia.
        -- right. exists k, kp. split; [exact E|]. split; [lia|]. split; [exact Hat|]. split; [destruct Hnk as [|]; [now left|right; lia]|].
           intros i Hij. destruct (Nat.eq_dec i j) as [->|]; [exact Ha|]. apply Hi. lia.
      * right. exists j, (p :: kept). cbn [map filter_attempts]. split; [reflexivity|]. split; [lia|]. split; [exact Ha|]. split; [left; discriminate|]. intros; lia.
Qed.

Lemma ring_out kept : (do ps <- mapo (fun i => do rr <- rd (map fst kept) i; do th <- rd (map snd kept) i; Some (rr * cos th, rr * sin th)) (seq 0 (length (map fst kept)));
    Some (map fst ps, map snd ps)) = Some (map (fun p => fst p * cos (snd p)) kept, map (fun p => fst p * sin (snd p)) kept).
Proof.
  assert (E : mapo (fun i => do rr <- rd (map fst kept) i; do th <- rd (map snd kept) i; Some (rr * cos th, rr * sin th)) (seq 0 (length (map fst kept))) =
     Some (map (fun p => (fst p * cos (snd p), fst p * sin (snd p))) kept)).
  { rewrite map_length. rewrite (mapo_map _ (fun i => (nth i (map fst kept) 0 * cos (nth i (map snd kept) 0), nth i (map fst kept) 0 * sin (nth i (map snd kept) 0)))).
    - f_equal. apply (nth_ext _ _ (0, 0) (0, 0)); [now rewrite !map_length, seq_length|]. intros j Hj. rewrite map_length, seq_length in Hj.
      apply nth_error_nth. rewrite map_seq_nth by exact Hj. f_equal. etransitivity; [|symmetry; apply (nth_indep _ (0, 0) ((fun p : R * R => (fst p * cos (snd p), fst p * sin (snd p))) (0, 0))); rewrite map_length; exact Hj].
      rewrite (map_nth (fun p : R * R => (fst p * cos (snd p), fst p * sin (snd p)))). cbv beta.
      rewrite (nth_indep (map fst kept) 0 (fst (0, 0))) by (rewrite map_length; lia). rewrite (nth_indep (map snd kept) 0 (snd (0, 0))) by (rewrite map_length; lia).
      rewrite !map_nth. reflexivity.
    - intros i Hi. apply in_seq in Hi. rewrite (rd_nth (map fst kept) i 0), (rd_nth (map snd kept) i 0) by (rewrite map_length; lia). reflexivity. }
  rewrite E. now rewrite !map_map.
Qed.
