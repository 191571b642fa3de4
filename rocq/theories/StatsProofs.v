(** * Proofs about stats mode: bookkeeping and shells. *)
From Verif Require Import StatsRunModel StatsSpec CmdProofs LoopFacts ShellProofs ShellProofs2 LosProofs9 InterpProofs.
From Verif Require Props_Cmd.
From Coq Require Import Reals Lra Lia ZArith List Permutation Sorted.
Import List ListNotations.
Local Open Scope R_scope.

(** ** The loop over the snapshots *)
Section Loop.
Context {X Y : Type}.
Variables (snaps : list Z) (xs : list X) (ib : CmdModel.gmap nat).
Hypothesis Lx : length xs = length snaps.
Hypothesis Sorted_ib : forall s, StronglySorted lt (CmdModel.mget ib s).
Hypothesis In_ib : forall s i, In i (CmdModel.mget ib s) <-> nth_error snaps i = Some s.

Lemma ib_lt s i : In i (CmdModel.mget ib s) -> (i < length snaps)%nat.
Proof. rewrite In_ib. intros H. apply nth_error_Some. congruence. Qed.

Lemma sorted_nodup l : StronglySorted lt l -> NoDup l.
Proof.
  induction 1 as [|a l H IH F]; constructor; [|exact IH]. intros K. rewrite Forall_forall in F. specialize (F a K). lia.
Qed.

Lemma gather_rows s : exists rows, CmdModel.gather xs (CmdModel.mget ib s) = Some rows /\ map (nth_error xs) (CmdModel.mget ib s) = map Some rows.
Proof.
  assert (H : forall i, In i (CmdModel.mget ib s) -> (i < length xs)%nat) by (intros i Hi; rewrite Lx; eapply ib_lt; eauto).
  revert H. generalize (CmdModel.mget ib s) as l. induction l as [|i l IH]; intros H; [exists []; split; reflexivity|].
  destruct IH as (rows & E & M); [intros j Hj; apply H; right; exact Hj|]. destruct (nth_error xs i) as [x|] eqn:Ex.
  - exists (x :: rows). cbn. unfold rd. rewrite Ex, E, M. split; reflexivity.
  - apply nth_error_None in Ex. specialize (H i (or_introl eq_refl)). lia.
Qed.

Lemma snap_loop_rows (proc : Z -> list X -> res (list Y)) ks : NoDup ks ->
  (forall s rows, In s ks -> s <> (-1)%Z -> CmdModel.gather xs (CmdModel.mget ib s) = Some rows -> exists ys, proc s rows = Ok ys /\ length ys = length rows) ->
  forall out, length out = length snaps -> exists out', CmdModel.snap_loop proc ib xs ks out = Ok out' /\ length out' = length snaps /\
    forall i s, nth_error snaps i = Some s ->
      (In s ks -> s <> (-1)%Z -> exists rows ys j, CmdModel.gather xs (CmdModel.mget ib s) = Some rows /\ proc s rows = Ok ys /\
         nth_error (CmdModel.mget ib s) j = Some i /\ nth_error ys j = nth_error out' i) /\
      (~ In s ks \/ s = (-1)%Z -> nth_error out' i = nth_error out i).
Proof.
  intros Nd. induction ks as [|s0 ks IH]; intros Hp out Lo; cbn [CmdModel.snap_loop].
  - exists out. split; [reflexivity|]. split; [exact Lo|]. intros i s Hi. split; [intros []|reflexivity].
  - inversion Nd as [|? ? Nin Nd']; subst. specialize (IH Nd' (fun s rows H => Hp s rows (or_intror H))).
    destruct (Z.eqb_spec s0 (-1)) as [->|Hs0].
    + destruct (IH out Lo) as (out' & E & L' & H). exists out'. split; [exact E|]. split; [exact L'|]. intros i s Hi. destruct (H i s Hi) as [A B]. split.
      * intros [<-|K] Ne; [congruence|auto].
      * intros [K| ->]; [apply B; left; intros Q; apply K; right; exact Q|apply B; right; reflexivity].
    + cbn zeta. destruct (gather_rows s0) as (rows & Eg & Mr). rewrite Eg. destruct (Hp s0 rows (or_introl eq_refl) Hs0 Eg) as (ys & Ep & Ly). rewrite Ep.
      assert (Lr : length rows = length (CmdModel.mget ib s0)) by (apply (f_equal (@length _)) in Mr; now rewrite !map_length in Mr).
      assert (HS : exists out1, CmdModel.scatter out (CmdModel.mget ib s0) ys = Some out1 /\ length out1 = length out /\
        (forall j, ~ In j (CmdModel.mget ib s0) -> nth_error out1 j = nth_error out j) /\
        (forall k i, nth_error (CmdModel.mget ib s0) k = Some i -> nth_error out1 i = nth_error ys k)).
      { destruct ys as [|d ys'] eqn:Ey.
        - assert (Em : CmdModel.mget ib s0 = []) by (apply length_zero_iff_nil; cbn in Ly; lia). rewrite Em. exists out. repeat split; try reflexivity. intros [|k] i K; discriminate K.
        - rewrite <- Ey in *. clear Ey. destruct (scatter_spec d (CmdModel.mget ib s0) out ys) as (out1 & E1 & L1 & A1 & B1).
          + apply sorted_nodup, Sorted_ib. + intros i Hi. rewrite Lo. eapply ib_lt; eauto. + lia.
          + exists out1. split; [exact E1|]. split; [exact L1|]. split.
            * intros j Hj. specialize (A1 j Hj). destruct (Nat.lt_ge_cases j (length out)) as [Hlt|Hge].
              -- rewrite (nth_error_nth' out1 d), (nth_error_nth' out d) by lia. now rewrite A1.
              -- rewrite !(proj2 (nth_error_None _ _)) by lia. reflexivity.
            * intros k i K. assert (Hk : (k < length (CmdModel.mget ib s0))%nat) by (apply nth_error_Some; congruence). specialize (B1 k Hk).
              rewrite (nth_error_nth (CmdModel.mget ib s0) k O K) in B1. apply nth_error_In in K. pose proof (ib_lt _ _ K).
              rewrite (nth_error_nth' out1 d), (nth_error_nth' ys d) by lia. now rewrite B1. }
      destruct HS as (out1 & E1 & L1 & A1 & B1). rewrite E1. destruct (IH out1 ltac:(lia)) as (out' & E & L' & H). exists out'. split; [exact E|]. split; [exact L'|].
      intros i s Hi. destruct (H i s Hi) as [A B]. split.
      * intros [<-|K] Ne; [|auto]. assert (Hin : In i (CmdModel.mget ib s0)) by (apply In_ib; exact Hi). apply In_nth_error in Hin. destruct Hin as (j & Hj).
        exists rows, ys, j. split; [exact Eg|]. split; [exact Ep|]. split; [exact Hj|]. rewrite (B (or_introl Nin)). symmetry. apply B1. exact Hj.
      * intros K. rewrite B; [|destruct K as [K|K]; [left; intros Q; apply K; right; exact Q|right; exact K]]. apply A1. intros Hin. apply In_ib in Hin.
        assert (s0 = s) by congruence. subst s0. destruct K as [K|K]; [apply K; left; reflexivity|congruence].
Qed.
End Loop.

Lemma stats_loop_rows {X Y} (proc : Z -> list X -> res (list Y)) enum snaps ids (xs : list X) (out : list Y) :
  (forall l, Permutation (enum l) l) -> length ids = length snaps -> length xs = length snaps -> length out = length snaps ->
  (forall s idxs rows, In s snaps -> s <> (-1)%Z -> lines_of snaps xs s idxs rows -> exists ys, proc s rows = Ok ys /\ length ys = length rows) ->
  exists out', CmdModel.stats_loop proc enum snaps ids xs out = Ok out' /\ length out' = length snaps /\
    forall i s, nth_error snaps i = Some s ->
      (s <> (-1)%Z -> exists idxs rows ys j, lines_of snaps xs s idxs rows /\ proc s rows = Ok ys /\ nth_error idxs j = Some i /\ nth_error ys j = nth_error out' i) /\
      (s = (-1)%Z -> nth_error out' i = nth_error out i).
Proof.
  intros P L1 L2 L3 Hp. destruct (Props_Cmd.C38_coefficient_groups X snaps ids xs L1 L2) as (sb & cb & ib & E & Kb & Ndb & Sb & Ib & _).
  unfold CmdModel.stats_loop. rewrite E. set (ks := CmdModel.sortInts (enum (CmdModel.mkeys sb))).
  assert (Pk : Permutation ks (CmdModel.mkeys sb)) by (unfold ks; rewrite sortInts_perm; apply P).
  assert (Gr : forall s rows, CmdModel.gather xs (CmdModel.mget ib s) = Some rows -> lines_of snaps xs s (CmdModel.mget ib s) rows).
  { intros s rows Eg. destruct (gather_rows snaps xs ib L2 Sb Ib s) as (rows' & Eg' & M). rewrite Eg in Eg'. injection Eg' as <-. split; [apply Sb|]. split; [apply Ib|exact M]. }
  assert (Nd : NoDup ks) by (rewrite Pk; exact Ndb).
  assert (Hp' : forall s rows, In s ks -> s <> (-1)%Z -> CmdModel.gather xs (CmdModel.mget ib s) = Some rows -> exists ys, proc s rows = Ok ys /\ length ys = length rows).
  { intros s rows Hs Ne Eg. apply (Hp s (CmdModel.mget ib s)); auto. apply Kb. rewrite <- Pk. exact Hs. }
  assert (Run : exists out', CmdModel.snap_loop proc ib xs ks out = Ok out' /\ length out' = length snaps /\
    forall i s, nth_error snaps i = Some s ->
      (In s ks -> s <> (-1)%Z -> exists rows ys j, CmdModel.gather xs (CmdModel.mget ib s) = Some rows /\ proc s rows = Ok ys /\
         nth_error (CmdModel.mget ib s) j = Some i /\ nth_error ys j = nth_error out' i) /\
      (~ In s ks \/ s = (-1)%Z -> nth_error out' i = nth_error out i)).
  { apply (snap_loop_rows snaps xs ib L2 Sb Ib proc ks Nd); auto. }
  destruct Run as (out' & E' & L' & H). exists out'. split; [exact E'|]. split; [exact L'|]. intros i s Hi. destruct (H i s Hi) as [A B]. split.
  - intros Ne. destruct A as (rows & ys & j & Eg & Ep & Ej & Ey); [rewrite Pk; apply Kb; eapply nth_error_In; eauto|exact Ne|].
    exists (CmdModel.mget ib s), rows, ys, j. auto.
  - intros ->. apply B. right. reflexivity.
Qed.
