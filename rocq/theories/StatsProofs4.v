(** * Proofs about stats mode: the rows of a run. *)
From Verif Require Import StatsRunModel StatsSpec CmdProofs LoopFacts ShellProofs ShellProofs2 LosProofs9 InterpProofs StatsProofs StatsProofs2 StatsProofs3.
From Verif Require CmdModel Props_Cmd.
From Coq Require Import Reals Lra Lia ZArith List Permutation Sorted Bool.
Import List ListNotations.
Local Open Scope R_scope.

(** ** The lines of a snapshot are unique *)
Lemma sorted_unique (l1 l2 : list nat) : StronglySorted lt l1 -> StronglySorted lt l2 -> (forall i, In i l1 <-> In i l2) -> l1 = l2.
Proof.
  intros S1. revert l2. induction S1 as [|a l1 S1 IH F1]; intros l2 S2 H.
  - destruct l2 as [|b l2]; [reflexivity|]. exfalso. apply (H b). left. reflexivity.
  - inversion S2 as [|b l2' S2' F2]; subst; [exfalso; apply (H a); left; reflexivity|]. rewrite Forall_forall in F1, F2.
    assert (a = b). { assert (A : In a (b :: l2')) by (apply H; left; reflexivity). assert (B : In b (a :: l1)) by (apply H; left; reflexivity). destruct A as [->|A]; [reflexivity|]. destruct B as [->|B]; [reflexivity|]. apply F1 in B. apply F2 in A. lia. }
    subst b. f_equal. apply IH; [exact S2'|]. intros i. specialize (H i). cbn [In] in H. split; intros K.
    + assert (a < i)%nat by (apply F1; exact K). destruct (proj1 H (or_intror K)) as [->|?]; [lia|assumption].
    + assert (a < i)%nat by (apply F2; exact K). destruct (proj2 H (or_intror K)) as [->|?]; [lia|assumption].
Qed.
Lemma lines_of_unique {X} snaps (xs : list X) s i1 r1 i2 r2 : lines_of snaps xs s i1 r1 -> lines_of snaps xs s i2 r2 -> i1 = i2 /\ r1 = r2.
Proof.
  intros (A1 & B1 & C1) (A2 & B2 & C2). assert (i1 = i2) by (apply sorted_unique; auto; intros i; rewrite B1, B2; tauto). subst i2. split; [reflexivity|]. rewrite C1 in C2. clear -C2. revert r2 C2.
  induction r1 as [|a r1 IH]; intros [|b r2] E; try discriminate; [reflexivity|]. cbn in E. injection E as -> E. f_equal. auto.
Qed.

(** ** Inversion of the loop *)
Lemma stats_loop_inv {X Y} (proc : Z -> list X -> res (list Y)) enum snaps ids (xs : list X) (out out' : list Y) :
  (forall l, Permutation (enum l) l) -> length ids = length snaps -> length xs = length snaps -> length out = length snaps ->
  (forall s rows ys, proc s rows = Ok ys -> length ys = length rows) ->
  CmdModel.stats_loop proc enum snaps ids xs out = Ok out' -> length out' = length snaps /\
    forall i s, nth_error snaps i = Some s ->
      (s <> (-1)%Z -> exists idxs rows ys j, lines_of snaps xs s idxs rows /\ proc s rows = Ok ys /\ nth_error idxs j = Some i /\ nth_error ys j = nth_error out' i) /\
      (s = (-1)%Z -> nth_error out' i = nth_error out i).
Proof.
  intros P L1 L2 L3 Hl E0.
  assert (Hp : forall s idxs rows, In s snaps -> s <> (-1)%Z -> lines_of snaps xs s idxs rows -> exists ys, proc s rows = Ok ys /\ length ys = length rows).
  { destruct (Props_Cmd.C38_coefficient_groups X snaps ids xs L1 L2) as (sb & cb & ib & E & Kb & Ndb & Sb & Ib & _).
    unfold CmdModel.stats_loop in E0. rewrite E in E0. set (ks := CmdModel.sortInts (enum (CmdModel.mkeys sb))) in *.
    assert (Pk : Permutation ks (CmdModel.mkeys sb)) by (unfold ks; rewrite sortInts_perm; apply P).
    assert (G : forall ks out, CmdModel.snap_loop proc ib xs ks out = Ok out' -> forall s, In s ks -> s <> (-1)%Z -> exists rows ys, CmdModel.gather xs (CmdModel.mget ib s) = Some rows /\ proc s rows = Ok ys).
    { clear. induction ks as [|k ks IH]; intros out E s Hs Ne; [contradiction|]. cbn [CmdModel.snap_loop] in E. destruct (Z.eqb_spec k (-1)) as [->|Hk].
      - destruct Hs as [<-|Hs]; [contradiction Ne; reflexivity|]. eapply IH; eauto.
      - destruct (CmdModel.gather xs (CmdModel.mget ib k)) as [rows|] eqn:Eg; [|discriminate]. destruct (proc k rows) as [ys| |] eqn:Ep; try discriminate. destruct (CmdModel.scatter out (CmdModel.mget ib k) ys) as [out1|]; [|discriminate].
        destruct Hs as [<-|Hs]; [eauto|]. eapply IH; eauto. }
    intros s idxs rows Hs Ne Hlines. destruct (G ks out E0 s) as (rows' & ys & Eg & Ep); [rewrite Pk; apply Kb; exact Hs|exact Ne|].
    destruct (gather_rows snaps xs ib L2 Sb Ib s) as (rows'' & Eg' & M). rewrite Eg in Eg'. injection Eg' as <-.
    assert (Q : lines_of snaps xs s (CmdModel.mget ib s) rows') by (split; [apply Sb|]; split; [apply Ib|exact M]).
    destruct (lines_of_unique _ _ _ _ _ _ _ Q Hlines) as [_ <-]. exists ys. split; [exact Ep|]. eapply Hl; eauto. }
  destruct (stats_loop_rows proc enum snaps ids xs out P L1 L2 L3 Hp) as (out'' & E & L & H). rewrite E0 in E. injection E as <-. auto.
Qed.

(** ** Lines *)
Lemma each_line_at {A B} (g : nat -> line -> A -> option B) lines : forall j0 l bs, length l = length lines -> each_line g j0 lines l = Some bs ->
  length bs = length lines /\ forall j ln a, nth_error lines j = Some ln -> nth_error l j = Some a -> exists b, nth_error bs j = Some b /\ g (j0 + j)%nat ln a = Some b.
Proof.
  induction lines as [|ln0 lines IH]; intros j0 [|a0 l] bs L E; try discriminate; cbn [each_line] in E.
  - injection E as <-. split; [reflexivity|]. intros [|j] ln a H; discriminate.
  - destruct (g j0 ln0 a0) as [b0|] eqn:Eg; [|discriminate]. destruct (each_line g (S j0) lines l) as [r|] eqn:Er; [|discriminate]. injection E as <-. injection L as L.
    destruct (IH _ _ _ L Er) as [L' H]. split; [cbn; congruence|]. intros [|j] ln a Hj Ha; cbn in Hj, Ha.
    + injection Hj as <-. injection Ha as <-. exists b0. rewrite Nat.add_0_r. auto.
    + destruct (H j ln a Hj Ha) as (b & Hb & E). exists b. replace (j0 + S j)%nat with (S j0 + j)%nat by lia. auto.
Qed.
Lemma each_line_len {A B} (g : nat -> line -> A -> option B) lines : forall j0 l bs, length l = length lines -> each_line g j0 lines l = Some bs -> length bs = length lines.
Proof. intros j0 l bs L E. apply (each_line_at g lines j0 l bs L E). Qed.

Section Rows.
Variables (eigen : list (list R) -> option ((R * R * R) * (vec * vec * vec))) (ratios : R -> R -> option (R * R * R)).
Variables (cf : StatsConf) (workers : nat) (draw : Z -> nat -> nat -> nat -> R * R) (arrive : Z -> nat -> nat -> bool -> list nat).

Lemma row_files_len snap lines : forall files fi rows rows', length rows = length lines -> row_files cf workers draw arrive snap fi lines files rows = Some rows' -> length rows' = length lines.
Proof.
  induction files as [|f files IH]; intros fi rows rows' L E; cbn [row_files] in E; [congruence|].
  destruct (existsb (line_meets (fst f)) lines); [|eauto]. destruct (each_line _ 0 lines rows) as [r1|] eqn:E1; [|discriminate]. eapply IH; [|exact E]. eapply each_line_len; eauto.
Qed.
Lemma stats_proc_len read s rows ys : stats_proc eigen ratios cf workers draw arrive read s rows = Ok ys -> length ys = length rows.
Proof.
  unfold stats_proc. destruct (each_line _ 0 rows rows) as [r0|] eqn:E0; [|discriminate]. assert (L0 : length r0 = length rows) by (eapply (each_line_len _ rows 0%nat rows); eauto).
  destruct (read s) as [[|f fs]|]; try discriminate. destruct (ts_skipMass cf); [intros [= <-]; exact L0|].
  destruct (row_files cf workers draw arrive s 0 rows (f :: fs) r0) as [r1|] eqn:E1; [|discriminate]. intros [= <-]. eapply row_files_len; eauto.
Qed.

Definition same_shape (a b : stats_row) : Prop :=
  w_rad a = w_rad b /\ w_vol a = w_vol b /\ w_sa a = w_sa b /\ w_a a = w_a b /\ w_b a = w_b b /\ w_c a = w_c b /\ w_avec a = w_avec b /\ w_rmin a = w_rmin b /\ w_rmax a = w_rmax b.
Lemma same_shape_refl a : same_shape a a. Proof. repeat split. Qed.
Lemma same_shape_trans a b c : same_shape a b -> same_shape b c -> same_shape a c.
Proof. intros (A1 & A2 & A3 & A4 & A5 & A6 & A7 & A8 & A9) (B1 & B2 & B3 & B4 & B5 & B6 & B7 & B8 & B9). repeat split; congruence. Qed.

Hypothesis Hw : (0 < workers)%nat.
Hypothesis Ha : forall snap fi j b, Permutation (arrive snap fi j b) (seq 0 workers).

(** The particles of a file that count for a line. *)
Definition file_masses (snap : Z) (j : nat) (s : Shell) (c : vec) (f : idfile) : list R :=
  picks (in_test s c (fst (range_sp cf draw snap j 4 s)) (snd (range_sp cf draw snap j 4 s)) (fst f)) (f_xs (fst f)) (f_ms (fst f)) (seq 0 (length (f_xs (fst f)))).
Definition file_ids (snap : Z) (j : nat) (s : Shell) (c : vec) (r : R) (f : idfile) : list Z :=
  picks (keep_test s c (fst (range_sp cf draw snap j 4 s)) (snd (range_sp cf draw snap j 4 s)) (fst f) r (ts_width cf)) (f_xs (fst f)) (snd f) (seq 0 (length (f_xs (fst f)))).
Definition file_ok (f : idfile) : Prop := length (f_ms (fst f)) = length (f_xs (fst f)) /\ (ts_filter cf = true -> length (snd f) = length (f_xs (fst f))).

Lemma row_file_ok snap fi f j c r cs row row' s : file_ok f -> shell_of cs = Some s -> row_file cf workers draw arrive snap fi f j (c, r, cs) row = Some row' ->
  same_shape row row' /\ w_mass row' = w_mass row + total (file_masses snap j s c f) /\
  Permutation (w_ids row') (w_ids row ++ if ts_filter cf then file_ids snap j s c r f else []).
Proof.
  intros [Lm Li] Es. unfold row_file, file_masses, file_ids. rewrite Es. destruct (range_sp cf draw snap j 4 s) as [rLow rHigh]. cbn [fst snd].
  rewrite (mass_contained_all s c rLow rHigh (fst f) workers _ Hw (Ha snap fi j false) Lm). destruct (ts_filter cf).
  - destruct f as [f ids]. cbn [fst snd] in *.
    destruct (append_all s c rLow rHigh f workers _ Hw (Ha snap fi j true) ids r (ts_width cf) (Li eq_refl) (w_ids row)) as (l & E & Pl). rewrite E.
    intros [= <-]. cbn. split; [repeat split|]. split; [reflexivity|]. rewrite Pl. reflexivity.
  - intros [= <-]. cbn. split; [repeat split|]. split; [reflexivity|]. rewrite app_nil_r. reflexivity.
Qed.

Lemma row_files_ok snap lines j c r cs s : nth_error lines j = Some (c, r, cs) -> shell_of cs = Some s -> forall files, (forall f, In f files -> file_ok f) -> forall fi rows rows' row,
  length rows = length lines -> row_files cf workers draw arrive snap fi lines files rows = Some rows' -> nth_error rows j = Some row ->
  exists row', nth_error rows' j = Some row' /\ same_shape row row' /\
    w_mass row' = w_mass row + total (flat_map (fun f => if existsb (line_meets (fst f)) lines then file_masses snap j s c f else []) files) /\
    Permutation (w_ids row') (w_ids row ++ flat_map (fun f => if existsb (line_meets (fst f)) lines && ts_filter cf then file_ids snap j s c r f else []) files).
Proof.
  intros Hln Es. induction files as [|f files IH]; intros Hok fi rows rows' row L E Hr; cbn [row_files] in E.
  - injection E as <-. exists row. split; [exact Hr|]. split; [apply same_shape_refl|]. cbn [flat_map]. unfold total. cbn [fold_right]. rewrite app_nil_r. split; [lra|reflexivity].
  - cbn [flat_map]. destruct (existsb (line_meets (fst f)) lines) eqn:Em.
    + destruct (each_line _ 0 lines rows) as [r1|] eqn:E1; [|discriminate]. destruct (each_line_at _ lines 0%nat rows r1 L E1) as [L1 H1].
      destruct (H1 j (c, r, cs) row Hln Hr) as (row1 & Hr1 & E2). cbn [Nat.add] in E2. destruct (row_file_ok _ _ _ _ _ _ _ _ _ _ (Hok f (or_introl eq_refl)) Es E2) as (S1 & M1 & P1).
      destruct (IH (fun g Hg => Hok g (or_intror Hg)) _ _ _ row1 L1 E Hr1) as (row' & Hr' & S2 & M2 & P2). exists row'. split; [exact Hr'|]. split; [eapply same_shape_trans; eauto|].
      rewrite total_app. split; [lra|]. rewrite P2, P1, <- app_assoc. cbn [andb]. reflexivity.
    + destruct (IH (fun g Hg => Hok g (or_intror Hg)) _ _ _ row L E Hr) as (row' & Hr' & S2 & M2 & P2). exists row'. auto.
Qed.

(** ** A row of the output *)
Lemma stats_rows_at enum read ids snaps lines rows : (forall l, Permutation (enum l) l) -> length ids = length snaps -> length lines = length snaps ->
  stats_rows eigen ratios cf workers draw arrive enum read ids snaps lines = Ok rows -> length rows = length snaps /\
  forall i s, nth_error snaps i = Some s ->
    (s = (-1)%Z -> nth_error rows i = Some zero_row) /\
    (s <> (-1)%Z -> exists idxs ls j shape f0 fs row, lines_of snaps lines s idxs ls /\ nth_error idxs j = Some i /\ read s = Some (f0 :: fs) /\ nth_error rows i = Some row /\
      (forall ln, nth_error lines i = Some ln -> nth_error ls j = Some ln /\ row_shape eigen ratios cf draw s j ln = Some shape /\
        (ts_skipMass cf = true -> row = shape) /\
        (ts_skipMass cf = false -> forall c r cs sh, ln = (c, r, cs) -> shell_of cs = Some sh -> (forall f, In f (f0 :: fs) -> file_ok f) ->
          same_shape shape row /\
          w_mass row = w_mass shape + total (flat_map (fun f => if existsb (line_meets (fst f)) ls then file_masses s j sh c f else []) (f0 :: fs)) /\
          Permutation (w_ids row) (w_ids shape ++ flat_map (fun f => if existsb (line_meets (fst f)) ls && ts_filter cf then file_ids s j sh c r f else []) (f0 :: fs))))).
Proof.
  intros P L1 L2 E. destruct (stats_loop_inv _ enum snaps ids lines _ rows P L1 L2 (repeat_length _ _) (stats_proc_len read) E) as [Lr H]. split; [exact Lr|].
  intros i s Hi. destruct (H i s Hi) as [A B]. split.
  - intros Es. rewrite (B Es). apply nth_error_repeat. apply nth_error_Some. change (length snaps) with (List.length snaps). intros K. assert (K' : nth_error snaps i = None) by exact K. rewrite K' in Hi. discriminate.
  - intros Ne. destruct (A Ne) as (idxs & ls & ys & j & Hl & Ep & Hj & Hy). unfold stats_proc in Ep.
    destruct (each_line (fun j ln (_ : line) => row_shape eigen ratios cf draw s j ln) 0 ls ls) as [r0|] eqn:E0; [|discriminate].
    destruct (each_line_at _ ls 0%nat ls r0 eq_refl E0) as [L0 H0].
    destruct (read s) as [[|f0 fs]|]; try discriminate.
    assert (Hln : exists ln, nth_error ls j = Some ln /\ nth_error lines i = Some ln).
    { destruct Hl as (_ & _ & M). assert (K : nth_error (map (nth_error lines) idxs) j = Some (nth_error lines i)) by (rewrite nth_error_map, Hj; reflexivity). rewrite M, nth_error_map in K.
      destruct (nth_error ls j) as [ln|]; [|discriminate]. exists ln. split; [reflexivity|]. cbn in K. congruence. }
    destruct Hln as (ln & Hlj & Hli). destruct (H0 j ln ln Hlj Hlj) as (shape & Hsh & Esh). cbn [Nat.add] in Esh.
    destruct (ts_skipMass cf) eqn:Esk.
    + injection Ep as <-. exists idxs, ls, j, shape, f0, fs, shape. split; [exact Hl|]. split; [exact Hj|]. split; [reflexivity|]. split; [congruence|].
      intros ln' Hln'. assert (ln' = ln) by congruence. subst ln'. split; [exact Hlj|]. split; [exact Esh|]. split; [reflexivity|discriminate].
    + destruct (row_files cf workers draw arrive s 0 ls (f0 :: fs) r0) as [r1|] eqn:Er; [|discriminate]. injection Ep as ->.
      assert (Ly : length ys = length ls) by (eapply row_files_len; eauto). destruct (nth_error ys j) as [row|] eqn:Ey; [|exfalso; apply nth_error_None in Ey; apply nth_error_Some in Hlj || idtac; assert (j < length ls)%nat by (apply nth_error_Some; rewrite Hlj; discriminate); lia].
      exists idxs, ls, j, shape, f0, fs, row. split; [exact Hl|]. split; [exact Hj|]. split; [reflexivity|]. split; [congruence|].
      intros ln' Hln'. assert (ln' = ln) by congruence. subst ln'. split; [exact Hlj|]. split; [exact Esh|]. split; [discriminate|]. intros _ c r cs sh -> Esf Hok.
      destruct (row_files_ok s ls j c r cs sh Hlj Esf (f0 :: fs) Hok 0%nat r0 ys shape L0 Er Hsh) as (row' & Hr' & R). rewrite Ey in Hr'. injection Hr' as <-. exact R.
Qed.
End Rows.
