(** * TriDiag solves the system; it fails exactly on a zero leading minor; NewSpline never fails on a monotone table. *)
From Coq Require Import Lra Psatz.
From Verif Require Import GoBase RealBase InterpModel InterpSpec InterpProofs InterpProofs2 InterpProofs3.
Local Open Scope R_scope.
Local Open Scope list_scope.

Lemma zip4_length a : forall b c r, List.length b = List.length a -> List.length r = List.length a -> (List.length a <= List.length c)%nat ->
  List.length (zip4 a b c r) = List.length a.
Proof.
  induction a as [|x a IH]; intros [|y b] [|z c] [|w r]; cbn; intros; try lia. rewrite IH; lia.
Qed.

Lemma sysTail_rows as' : forall bs' cs rs' u us, List.length bs' = List.length as' -> List.length rs' = List.length as' ->
  List.length cs = S (List.length as') -> sysTail (zip4 as' bs' cs rs') u us ->
  List.length us = List.length as' /\
  forall i, (i < List.length as')%nat -> nth i as' 0 * nth i (u :: us) 0 + nth i bs' 0 * nth i us 0
      + (if Nat.eqb (S i) (List.length as') then 0 else nth (S i) cs 0 * nth (S i) us 0) = nth i rs' 0.
Proof.
  induction as' as [|a as' IH]; intros [|b bs'] [|c cs] [|r rs'] u us; cbn [List.length]; intros H1 H2 H3; try lia.
  - cbn. destruct us; [|tauto]. intros _. split; [reflexivity|]. intros i Hi. lia.
  - cbn [zip4 sysTail]. destruct us as [|u' us]; [tauto|]. intros [E HS].
    destruct (IH bs' cs rs' u' us ltac:(lia) ltac:(lia) ltac:(lia) HS) as [Hl Hrow].
    split; [cbn; lia|]. intros [|i] Hi.
    + cbn [nth]. rewrite <- E. destruct as' as [|a' as']; destruct bs' as [|b' bs']; destruct rs' as [|r' rs']; cbn in H1, H2, H3; try lia.
      * cbn. ring.
      * destruct cs as [|c' cs]; [cbn in H3; lia|]. cbn [zip4 List.length Nat.eqb]. destruct us as [|u'' us]; [cbn in Hl; lia|].
        cbn [nth]. ring.
    + cbn [nth]. rewrite <- (Hrow i) by lia. cbn [nth Nat.eqb]. reflexivity.
Qed.

Theorem TriDiag_solves as_ bs cs rs us : TriDiag as_ bs cs rs = Some us -> tri_solution as_ bs cs rs us.
Proof.
  unfold TriDiag. destruct (_ && _) eqn:EL; cbn [negb]; [|discriminate].
  apply andb_true_iff in EL. destruct EL as [EL H3]. apply andb_true_iff in EL. destruct EL as [H1 H2].
  apply Nat.eqb_eq in H1, H2, H3.
  destruct bs as [|b0 bs']; [discriminate|]. destruct rs as [|r0 rs']; [discriminate|].
  destruct (Reqb b0 0) eqn:E0; [discriminate|]. apply Reqb_false in E0.
  destruct (triFwd (zip4 (tl as_) bs' cs rs') b0 (r0 / b0)) as [l|] eqn:EF; [|discriminate]. cbn [option_map]. intros [= <-].
  destruct as_ as [|a0 as']; [cbn in H1; lia|]. cbn [tl] in EF. cbn in H1, H2, H3.
  destruct (triFwd_solves _ _ _ _ E0 EF) as (u & us & EB & Hrow0 & HS). rewrite EB.
  destruct (sysTail_rows as' bs' cs rs' u us ltac:(lia) ltac:(lia) ltac:(lia) HS) as [Hl Hrows].
  split; [cbn; lia|]. intros [|i] Hi.
  - cbn [nth]. replace (b0 * (r0 / b0)) with r0 in Hrow0 by (field; exact E0). rewrite <- Hrow0.
    destruct as' as [|a1 as']; destruct bs' as [|b1 bs']; destruct rs' as [|r1 rs']; cbn in H1, H2, H3; try lia.
    + cbn. ring.
    + destruct cs as [|c0 cs]; [cbn in H2; lia|]. cbn [zip4 List.length Nat.eqb]. destruct us as [|u' us]; [cbn in Hl; lia|].
      cbn [nth]. ring.
  - cbn [List.length] in Hi. change (nth (S i) (r0 :: rs') 0) with (nth i rs' 0). rewrite <- (Hrows i) by lia. replace (Nat.eqb (S (S i)) (List.length (b0 :: bs'))) with (Nat.eqb (S i) (List.length as')).
    2:{ cbn [List.length Nat.eqb]. rewrite <- H1 in *. replace (List.length bs') with (List.length as') by lia. reflexivity. }
    cbn [nth]. reflexivity.
Qed.

(** ** Failure exactly when a leading minor vanishes *)
Fixpoint detFrom (p q : R) (as' bs' cs : list R) (k : nat) : R * R :=
  match k with O => (p, q) | S j => let (p', q') := detFrom p q as' bs' cs j in (q', nth j bs' 0 * q' - nth j as' 0 * nth j cs 0 * p') end.

Lemma triFwd_fails as' : forall bs' cs rs' p q beta o, List.length bs' = List.length as' -> List.length rs' = List.length as' ->
  List.length cs = S (List.length as') -> p <> 0 -> beta <> 0 -> q = beta * p ->
  triFwd (zip4 as' bs' cs rs') beta o = None <-> exists k, (k < List.length as')%nat /\ snd (detFrom p q as' bs' cs (S k)) = 0.
Proof.
  induction as' as [|a as' IH]; intros [|b bs'] [|c cs] [|r rs'] p q beta o; cbn [List.length]; intros H1 H2 H3 Hp Hb Hq; try lia.
  - cbn. split; [discriminate|]. intros (k & Hk & _). lia.
  - cbn [zip4 triFwd].
    assert (EQ : b * q - a * c * p = (b - a * (c / beta)) * q) by (rewrite Hq; field; exact Hb).
    assert (Hq0 : q <> 0) by (rewrite Hq; apply Rmult_integral_contrapositive_currified; assumption).
    destruct (Reqb (b - a * (c / beta)) 0) eqn:E0.
    + apply Reqb_true in E0. split; [|reflexivity]. intros _. exists O. split; [lia|]. cbn. rewrite EQ, E0. ring.
    + apply Reqb_false in E0. set (beta' := b - a * (c / beta)) in *. clearbody beta'.
      specialize (IH bs' cs rs' q (b * q - a * c * p) beta' ((r - a * o) / beta') ltac:(lia) ltac:(lia) ltac:(lia) Hq0 E0 EQ).
      assert (HD : forall k, detFrom p q (a :: as') (b :: bs') (c :: cs) (S k) = detFrom q (b * q - a * c * p) as' bs' cs k).
      { induction k as [|k IHk]; [reflexivity|].
        change (detFrom p q (a :: as') (b :: bs') (c :: cs) (S (S k))) with
          (let (p', q') := detFrom p q (a :: as') (b :: bs') (c :: cs) (S k) in (q', nth (S k) (b :: bs') 0 * q' - nth (S k) (a :: as') 0 * nth (S k) (c :: cs) 0 * p')).
        rewrite IHk. reflexivity. }
      transitivity (triFwd (zip4 as' bs' cs rs') beta' ((r - a * o) / beta') = None).
      { destruct (triFwd _ _ _); cbn; split; congruence. }
      rewrite IH. split.
      * intros (k & Hk & E). exists (S k). split; [lia|]. rewrite HD. exact E.
      * intros ([|k] & Hk & E).
        -- exfalso. rewrite HD in E. cbn in E. rewrite EQ in E. apply Rmult_integral in E. tauto.
        -- exists k. split; [lia|]. rewrite HD in E. exact E.
Qed.

Theorem TriDiag_fails as_ bs cs rs n : List.length as_ = n -> List.length bs = n -> List.length cs = n -> List.length rs = n -> (1 <= n)%nat ->
  TriDiag as_ bs cs rs = None <-> exists k, (1 <= k <= n)%nat /\ leading_minor as_ bs cs k = 0.
Proof.
  intros H1 H2 H3 H4 Hn. unfold TriDiag. rewrite H1, H2, H3, H4, Nat.eqb_refl. cbn [andb negb].
  destruct bs as [|b0 bs']; [cbn in H2; lia|]. destruct rs as [|r0 rs']; [cbn in H4; lia|]. destruct as_ as [|a0 as']; [cbn in H1; lia|].
  cbn in H1, H2, H4. assert (HL : forall k, leading_minor (a0 :: as') (b0 :: bs') cs (S k) = snd (minor2 (a0 :: as') (b0 :: bs') cs k)).
  { intros k. unfold leading_minor. cbn [minor2]. destruct (minor2 (a0 :: as') (b0 :: bs') cs k). reflexivity. }
  destruct (Reqb b0 0) eqn:E0.
  - apply Reqb_true in E0. split; [|reflexivity]. intros _. exists 1%nat. split; [lia|]. rewrite HL. cbn. exact E0.
  - apply Reqb_false in E0. cbn [tl].
    pose proof (triFwd_fails as' bs' cs rs' 1 b0 b0 (r0 / b0) ltac:(lia) ltac:(lia) ltac:(lia) ltac:(lra) E0 ltac:(ring)) as HF.
    assert (HD : forall k, minor2 (a0 :: as') (b0 :: bs') cs k = detFrom 1 b0 as' bs' cs k).
    { induction k as [|k IHk]; [reflexivity|]. cbn [minor2 detFrom]. rewrite IHk. cbn [nth]. reflexivity. }
    transitivity (triFwd (zip4 as' bs' cs rs') b0 (r0 / b0) = None).
    { destruct (triFwd _ _ _); cbn; split; congruence. }
    rewrite HF. split.
    + intros (k & Hk & E). exists (S (S k)). split; [lia|]. rewrite HL, HD. exact E.
    + intros ([|[|k]] & Hk & E); [lia| |].
      * rewrite HL in E. cbn in E. contradiction.
      * exists k. split; [lia|]. rewrite HL, HD in E. exact E.
Qed.

Theorem TriDiag_bad_lengths as_ bs cs rs : ~ (List.length as_ = List.length bs /\ List.length as_ = List.length cs /\ List.length as_ = List.length rs) \/ bs = [] ->
  TriDiag as_ bs cs rs = None.
Proof.
  intros H. unfold TriDiag. destruct (_ && _) eqn:EL; cbn [negb]; [|reflexivity].
  apply andb_true_iff in EL. destruct EL as [EL H3]. apply andb_true_iff in EL. destruct EL as [H1 H2].
  apply Nat.eqb_eq in H1, H2, H3. destruct H as [H| ->]; [exfalso; apply H; auto|reflexivity].
Qed.

(** ** Diagonal dominance *)
Lemma dom_fwd as' : forall bs' cs rs' beta o, List.length bs' = List.length as' -> List.length rs' = List.length as' ->
  List.length cs = S (List.length as') -> beta <> 0 ->
  (as' <> [] -> Rabs (nth 0 cs 0) < Rabs beta) ->
  (forall i, (i < List.length as')%nat -> Rabs (nth i as' 0) + (if Nat.eqb (S i) (List.length as') then 0 else Rabs (nth (S i) cs 0)) < Rabs (nth i bs' 0)) ->
  triFwd (zip4 as' bs' cs rs') beta o <> None.
Proof.
  induction as' as [|a as' IH]; intros [|b bs'] [|c cs] [|r rs'] beta o; cbn [List.length]; intros H1 H2 H3 Hb Hc Hdom; try lia.
  - cbn. discriminate.
  - cbn [zip4 triFwd]. specialize (Hc ltac:(discriminate)). cbn [nth] in Hc.
    assert (Hge : Rabs b - Rabs a <= Rabs (b - a * (c / beta))).
    { assert (Rabs (a * (c / beta)) <= Rabs a).
      { rewrite Rabs_mult. unfold Rdiv. rewrite Rabs_mult, (Rabs_inv beta).
        assert (Hbp : 0 < Rabs beta) by (apply Rabs_pos_lt; exact Hb).
        assert (Rabs c * / Rabs beta <= 1).
        { apply Rmult_le_reg_r with (Rabs beta); [exact Hbp|]. rewrite Rmult_assoc, Rinv_l, Rmult_1_r by lra. lra. }
        pose proof (Rabs_pos a). nra. }
      pose proof (Rabs_triang (b - a * (c / beta)) (a * (c / beta))) as T. replace (b - a * (c / beta) + a * (c / beta)) with b in T by ring. lra. }
    pose proof (Hdom O ltac:(lia)) as D0. cbn [nth] in D0.
    assert (Hpos : 0 < Rabs (b - a * (c / beta))).
    { destruct (Nat.eqb 1 (S (List.length as'))); [lra|]. pose proof (Rabs_pos (nth 0 cs 0)). lra. }
    assert (Hne : b - a * (c / beta) <> 0) by (intro E; rewrite E, Rabs_R0 in Hpos; lra).
    rewrite (proj2 (Reqb_false _ _) Hne).
    assert (Hrec : triFwd (zip4 as' bs' cs rs') (b - a * (c / beta)) ((r - a * o) / (b - a * (c / beta))) <> None).
    { apply IH; try lia; try assumption.
      - intros Hn. destruct as' as [|a' as']; [congruence|]. cbn [List.length Nat.eqb nth] in D0. lra.
      - intros i Hi. pose proof (Hdom (S i) ltac:(lia)) as D. cbn [nth Nat.eqb] in D. exact D. }
    destruct (triFwd _ _ _); cbn; [discriminate|congruence].
Qed.

Theorem TriDiag_dominant as_ bs cs rs n : List.length as_ = n -> List.length bs = n -> List.length cs = n -> List.length rs = n -> (1 <= n)%nat ->
  dominant as_ bs cs -> exists us, TriDiag as_ bs cs rs = Some us.
Proof.
  intros H1 H2 H3 H4 Hn Hdom. unfold TriDiag. rewrite H1, H2, H3, H4, Nat.eqb_refl. cbn [andb negb].
  destruct bs as [|b0 bs']; [cbn in H2; lia|]. destruct rs as [|r0 rs']; [cbn in H4; lia|]. destruct as_ as [|a0 as']; [cbn in H1; lia|].
  cbn in H1, H2, H4. pose proof (Hdom O ltac:(cbn; lia)) as D0. cbn [nth] in D0.
  assert (Hb : b0 <> 0).
  { intros ->. rewrite Rabs_R0 in D0. destruct (Nat.eqb 1 (List.length (0 :: bs'))); [lra|]. pose proof (Rabs_pos (nth 0 cs 0)). lra. }
  rewrite (proj2 (Reqb_false _ _) Hb). cbn [tl].
  destruct (triFwd (zip4 as' bs' cs rs') b0 (r0 / b0)) eqn:E; [cbn; eauto|]. exfalso. revert E.
  apply dom_fwd; try lia; try assumption.
  - intros Hne. destruct bs' as [|b1 bs']; [destruct as'; [congruence|cbn in *; lia]|]. cbn [List.length Nat.eqb] in D0. lra.
  - intros i Hi. pose proof (Hdom (S i) ltac:(cbn; lia)) as D. cbn [nth List.length] in D.
    replace (Nat.eqb (S i) (List.length as')) with (Nat.eqb (S (S i)) (S (List.length bs'))); [exact D|].
    cbn [Nat.eqb]. replace (List.length bs') with (List.length as') by lia. reflexivity.
Qed.
