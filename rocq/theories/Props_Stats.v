(** * C177-C183: the masses, particles and columns of stats mode. *)
From Verif Require Import StatsRunModel StatsSpec CmdProofs LoopFacts ShellProofs ShellProofs2 LosProofs9 InterpProofs StatsProofs StatsProofs2 StatsProofs3 StatsProofs4.
From Verif Require CmdModel FilterModel FilterSpec FilterProofs Props_Filter ModeConfModel CatalogModel PhaseProofs.
From Coq Require Import Reals Lra Lia ZArith List Permutation Sorted Bool.
From Verif Require Import GoBase.
Import List ListNotations.
Local Open Scope R_scope.

(** ** Vocabulary *)
(** The particles of the files, with their masses or ids. *)
Definition with_masses (files : list idfile) : list (vec3 * R) := flat_map (fun f => combine (f_xs (fst f)) (f_ms (fst f))) files.
Definition with_ids (files : list idfile) : list (vec3 * Z) := flat_map (fun f => combine (f_xs (fst f)) (snd f)) files.
(** A file as the readers return it: masses and ids for all particles, the particles inside of the region of the header, none so far from the halo that it would be
    nearer through the sides of the box. *)
Definition good_file (c : vec3) (f : idfile) : Prop :=
  length (f_ms (fst f)) = length (f_xs (fst f)) /\ length (snd f) = length (f_xs (fst f)) /\
  forall x, In x (f_xs (fst f)) -> PhaseProofs.in_region (f_origin (fst f)) (f_width (fst f)) x /\ unwrapped (f_tw (fst f)) c x.
(** A shell: coefficients of order o, positive radius in every direction. *)
Definition good_shell (o : nat) (cs : list R) : Prop := (1 <= o)%nat /\ length cs = (2 * o * o)%nat /\ forall n, unit3 n -> 0 < pd_radius o cs n.

Lemma sq3_pos u v w : 0 <= u * u + v * v + w * w.
Proof. pose proof (Rle_0_sqr u). pose proof (Rle_0_sqr v). pose proof (Rle_0_sqr w). unfold Rsqr in *. lra. Qed.
Lemma sq3_0 u v w : u * u + v * v + w * w = 0 -> u = 0 /\ v = 0 /\ w = 0.
Proof.
  intros H. pose proof (Rle_0_sqr u). pose proof (Rle_0_sqr v). pose proof (Rle_0_sqr w). unfold Rsqr in *.
  repeat split; apply Rsqr_0_uniq; unfold Rsqr; lra.
Qed.

Section S.
Variables (eigen : list (list R) -> option ((R * R * R) * (vec * vec * vec))) (ratios : R -> R -> option (R * R * R)).
Variables (cf : StatsConf) (workers : nat) (draw : Z -> nat -> nat -> nat -> R * R) (arrive : Z -> nat -> nat -> bool -> list nat).
Variables (enum : list Z -> list Z) (read : Z -> option (list idfile)).
Hypothesis Hw : (0 < workers)%nat.
Hypothesis Ha : forall snap fi j b, Permutation (arrive snap fi j b) (seq 0 workers).
Hypothesis He : forall l, Permutation (enum l) l.
Let run := stats_rows eigen ratios cf workers draw arrive enum read.

Lemma picked_files {V} (P : vec3 -> Prop) (vals : idfile -> list V) (pick : idfile -> list V) (m : idfile -> bool) files :
  (forall f, In f files -> picked P (combine (f_xs (fst f)) (vals f)) (pick f)) ->
  (forall f, In f files -> m f = false -> forall x, In x (f_xs (fst f)) -> ~ P x) ->
  picked P (flat_map (fun f => combine (f_xs (fst f)) (vals f)) files) (flat_map (fun f => if m f then pick f else []) files).
Proof.
  induction files as [|f files IH]; intros H1 H2; [constructor|]. cbn [flat_map]. apply picked_app; [|apply IH; intros; [apply H1|eapply H2]; eauto; right; assumption].
  destruct (m f) eqn:Em; [apply H1; left; reflexivity|]. specialize (H2 f (or_introl eq_refl) Em). clear -H2. revert H2. generalize (vals f) as l. induction (f_xs (fst f)) as [|x xs IH]; intros l H; [constructor|].
  destruct l as [|v l]; cbn [combine]; [constructor|]. apply pk_out; [apply H; left; reflexivity|]. apply IH. intros y Hy. apply H. right. exact Hy.
Qed.

Lemma sub3_dist x c : sqrt (dist2_3 x c) = norm3 (sub3 x c).
Proof. destruct x as [[a b] d], c as [[a' b'] d']. reflexivity. Qed.

Lemma range_props s j o cs sh : (forall phi th, sh phi th = pd_radius o cs (direction (phi, th))) ->
  sampled_range o cs (map (draw s j 4) (seq 0 (S (ts_samples cf)))) (fst (range_sp cf draw s j 4 sh)) (snd (range_sp cf draw s j 4 sh)).
Proof. intros Hsh. exact (radial_range_sampled o cs sh (draw s j 4%nat 0%nat) (map (draw s j 4%nat) (seq 1 (ts_samples cf))) Hsh). Qed.
Lemma range_pos o cs angles lo hi : good_shell o cs -> sampled_range o cs angles lo hi -> 0 < lo /\ 0 < hi /\ lo <= hi.
Proof.
  intros (_ & _ & Hp) ((a & Ia & Ea) & (b & Ib & Eb) & H). assert (0 < lo) by (rewrite Ea; apply Hp, direction_unit). assert (0 < hi) by (rewrite Eb; apply Hp, direction_unit). split; [assumption|]. split; [assumption|]. specialize (H a Ia). lra.
Qed.
Lemma range_below o cs angles lo hi r : (forall n, unit3 n -> pd_radius o cs n <= r) -> sampled_range o cs angles lo hi -> lo <= r /\ hi <= r.
Proof. intros Hp ((a & Ia & Ea) & (b & Ib & Eb) & H). rewrite Ea, Eb. split; apply Hp, direction_unit. Qed.

(** The mass test on a particle of a good file. *)
Lemma in_test_iff o cs sh c lo hi (f : idfile) x : good_file c f -> (forall phi th, sh phi th = pd_radius o cs (direction (phi, th))) -> 0 < lo -> 0 < hi -> In x (f_xs (fst f)) ->
  in_test sh c lo hi (fst f) x = true <-> norm3 (sub3 x c) < lo \/ norm3 (sub3 x c) < hi /\ inside_pd o cs (sub3 x c).
Proof.
  intros (_ & _ & Hf) Hsh Hlo Hhi Hx. destruct (Hf x Hx) as [_ U]. unfold in_test. rewrite (displacement_unwrapped _ _ _ U). destruct (sub3 x c) as [[a b] d]. apply mass_inside_iff; [exact Hsh|exact Hlo|lra].
Qed.
Lemma meets_far (f : idfile) ls j c r cs x : nth_error ls j = Some (c, r, cs) -> existsb (line_meets (fst f)) ls = false -> good_file c f -> 0 < r -> In x (f_xs (fst f)) -> r <= norm3 (sub3 x c).
Proof.
  intros Hj Em (_ & _ & Hf) Hr Hx. destruct (Rle_lt_dec r (norm3 (sub3 x c))) as [?|Hlt]; [assumption|]. exfalso. apply nth_error_In in Hj.
  assert (K : existsb (line_meets (fst f)) ls = true); [|rewrite K in Em; discriminate]. apply existsb_exists. exists (c, r, cs). split; [exact Hj|]. unfold line_meets.
  destruct (Hf x Hx) as [Hreg _]. apply (PhaseProofs.sphere_meets c r _ _ x); [exact Hr|exact Hreg|]. rewrite sub3_dist. exact Hlt.
Qed.

(** ** C177: M_sp *)
(** Whatever the draws, the arrival of the workers' results and the order of the snapshots: the mass of a row is that of the particles of the snapshot's files which are
    closer to the centre than the least sampled radius of the shell, or inside of the shell and closer than the greatest. The shell has to lie within R200m. *)
Theorem C177_mass_partial : forall ids snaps lines rows i s c r cs o files,
  ts_skipMass cf = false -> length ids = length snaps -> length lines = length snaps -> run ids snaps lines = Ok rows ->
  nth_error snaps i = Some s -> s <> (-1)%Z -> nth_error lines i = Some (c, r, cs) -> read s = Some files ->
  good_shell o cs -> 0 < r -> (forall n, unit3 n -> pd_radius o cs n <= r) -> (forall f, In f files -> good_file c f) ->
  exists row angles lo hi Ms, nth_error rows i = Some row /\ length angles = S (ts_samples cf) /\ sampled_range o cs angles lo hi /\
    picked (fun x => norm3 (sub3 x c) < lo \/ norm3 (sub3 x c) < hi /\ inside_pd o cs (sub3 x c)) (with_masses files) Ms /\ w_mass row = total Ms.
Proof.
  intros ids snaps lines rows i s c r cs o files Sk L1 L2 E Hi Ne Hln Hrd Gs Hr Hb Gf.
  destruct (stats_rows_at eigen ratios cf workers draw arrive Hw Ha enum read ids snaps lines rows He L1 L2 E) as [_ H]. destruct (H i s Hi) as [_ H']. destruct (H' Ne) as (idxs & ls & j & shape & f0 & fs & row & Hl & Hj & Er & Erow & K). clear H H'.
  destruct (K _ Hln) as (Hlj & Esh & _ & K'). clear K. rewrite Hrd in Er. injection Er as ->. destruct Gs as (Ho & Lc & Hp). destruct (shell_of_ok cs o Ho Lc) as (sh & Esf & Hsh).
  destruct (K' Sk c r cs sh eq_refl Esf) as (_ & Em & _). { intros f Hf. destruct (Gf f Hf) as (A & B & _). split; auto. }
  set (lo := fst (range_sp cf draw s j 4 sh)). set (hi := snd (range_sp cf draw s j 4 sh)). pose proof (range_props s j o cs sh Hsh) as Rg. fold lo hi in Rg.
  destruct (range_pos o cs _ lo hi (conj Ho (conj Lc Hp)) Rg) as (Plo & Phi & Hlh). destruct (range_below o cs _ lo hi r Hb Rg) as [Blo Bhi].
  exists row, (map (draw s j 4) (seq 0 (S (ts_samples cf)))), lo, hi. eexists. split; [exact Erow|]. split; [rewrite map_length, seq_length; reflexivity|]. split; [exact Rg|]. split.
  - apply (picked_files _ (fun f => f_ms (fst f)) (file_masses cf draw s j sh c) (fun f => existsb (line_meets (fst f)) ls)).
    + intros f Hf. unfold file_masses. fold lo hi. apply picks_all; [|apply (Gf f Hf)]. intros x Hx. apply in_test_iff; auto.
    + intros f Hf Ef x Hx. pose proof (meets_far f ls j c r cs x Hlj Ef (Gf f Hf) Hr Hx). lra.
  - rewrite Em. unfold row_shape in Esh. cbn [snd] in Esh. rewrite Esf in Esh. destruct (shell_axes eigen ratios sh _) as [[[[? ?] ?] ?]|]; [|discriminate]. destruct (range_sp cf draw s j 3 sh). injection Esh as <-. cbn [w_mass]. rewrite Rplus_0_l. reflexivity.
Qed.

(** If in addition no direction has a radius outside of the sampled range then M_sp is the mass inside of the shell. *)
Theorem C177_mass_inside_partial : forall ids snaps lines rows i s c r cs o files,
  ts_skipMass cf = false -> length ids = length snaps -> length lines = length snaps -> run ids snaps lines = Ok rows ->
  nth_error snaps i = Some s -> s <> (-1)%Z -> nth_error lines i = Some (c, r, cs) -> read s = Some files ->
  good_shell o cs -> 0 < r -> (forall n, unit3 n -> pd_radius o cs n <= r) -> (forall f, In f files -> good_file c f) ->
  (forall j n, unit3 n -> exists a b, In a (map (draw s j 4) (seq 0 (S (ts_samples cf)))) /\ In b (map (draw s j 4) (seq 0 (S (ts_samples cf)))) /\ pd_radius o cs (direction a) <= pd_radius o cs n <= pd_radius o cs (direction b)) ->
  exists row Ms, nth_error rows i = Some row /\ picked (fun x => x = c \/ inside_pd o cs (sub3 x c)) (with_masses files) Ms /\ w_mass row = total Ms.
Proof.
  intros ids snaps lines rows i s c r cs o files Sk L1 L2 E Hi Ne Hln Hrd Gs Hr Hb Gf Br.
  destruct (stats_rows_at eigen ratios cf workers draw arrive Hw Ha enum read ids snaps lines rows He L1 L2 E) as [_ H]. destruct (H i s Hi) as [_ H']. destruct (H' Ne) as (idxs & ls & j & shape & f0 & fs & row & Hl & Hj & Er & Erow & K). clear H H'.
  destruct (K _ Hln) as (Hlj & Esh & _ & K'). clear K. rewrite Hrd in Er. injection Er as ->. destruct Gs as (Ho & Lc & Hp). destruct (shell_of_ok cs o Ho Lc) as (sh & Esf & Hsh).
  destruct (K' Sk c r cs sh eq_refl Esf) as (_ & Em & _). { intros f Hf. destruct (Gf f Hf) as (A & B & _). split; auto. }
  set (lo := fst (range_sp cf draw s j 4 sh)). set (hi := snd (range_sp cf draw s j 4 sh)). pose proof (range_props s j o cs sh Hsh) as Rg. fold lo hi in Rg.
  destruct (range_pos o cs _ lo hi (conj Ho (conj Lc Hp)) Rg) as (Plo & Phi & Hlh). destruct (range_below o cs _ lo hi r Hb Rg) as [Blo Bhi].
  assert (Bet : forall n, unit3 n -> lo <= pd_radius o cs n <= hi). { intros n Hn. destruct (Br j n Hn) as (a & b & Ia & Ib & A & B). destruct Rg as (_ & _ & G). pose proof (G a Ia). pose proof (G b Ib). lra. }
  exists row. eexists. split; [exact Erow|].
  assert (Iff : forall x, (norm3 (sub3 x c) < lo \/ norm3 (sub3 x c) < hi /\ inside_pd o cs (sub3 x c)) <-> x = c \/ inside_pd o cs (sub3 x c)).
  { intros x. split.
    - intros [Hlt|[_ Hin]]; [|right; exact Hin]. destruct (Req_dec (norm3 (sub3 x c)) 0) as [Z0|Nz].
      + left. destruct x as [[a b] d], c as [[a' b'] d']. unfold norm3, sub3, dot3 in Z0. apply sqrt_eq_0 in Z0; [|apply sq3_pos]. destruct (sq3_0 _ _ _ Z0) as (? & ? & ?). f_equal; [f_equal|]; lra.
      + right. assert (Pos : 0 < norm3 (sub3 x c)) by (pose proof (sqrt_pos (dot3 (sub3 x c) (sub3 x c))); unfold norm3 in *; lra). destruct (sub3 x c) as [[a b] d] eqn:Es. pose proof (code_angles a b d Pos) as Q.
        exists (norm3 (a, b, d)), (direction (atan2 b a, acos (d / norm3 (a, b, d)))). split; [exact Pos|]. split; [apply direction_unit|]. split; [symmetry; exact Q|]. pose proof (Bet _ (direction_unit (atan2 b a, acos (d / norm3 (a, b, d))))). lra.
    - intros [->|Hin].
      + left. replace (norm3 (sub3 c c)) with 0; [exact Plo|]. destruct c as [[a b] d]. unfold norm3, sub3, dot3. symmetry. replace ((a - a) * (a - a) + (b - b) * (b - b) + (d - d) * (d - d)) with 0 by ring. apply sqrt_0.
      + right. split; [|exact Hin]. destruct Hin as (q & n & Hq & U & En & Hlt). rewrite En, scale3_norm by assumption. pose proof (Bet n U). lra. }
  split.
  - apply (picked_files _ (fun f => f_ms (fst f)) (file_masses cf draw s j sh c) (fun f => existsb (line_meets (fst f)) ls)).
    + intros f Hf. unfold file_masses. fold lo hi. apply picks_all; [|apply (Gf f Hf)]. intros x Hx. rewrite <- Iff. apply in_test_iff; auto.
    + intros f Hf Ef x Hx. pose proof (meets_far f ls j c r cs x Hlj Ef (Gf f Hf) Hr Hx). rewrite <- Iff. lra.
  - rewrite Em. unfold row_shape in Esh. cbn [snd] in Esh. rewrite Esf in Esh. destruct (shell_axes eigen ratios sh _) as [[[[? ?] ?] ?]|]; [|discriminate]. destruct (range_sp cf draw s j 3 sh). injection Esh as <-. cbn [w_mass]. rewrite Rplus_0_l. reflexivity.
Qed.

(** ** C179: the particles of the shell *)
(** With a negative width the ids of a row are those of the particles inside of the shell (closer than the greatest sampled radius); otherwise those of the particles within
    ShellWidth R200m of the shell along their direction (and of the sampled range). *)
Theorem C179_ids_partial : forall ids snaps lines rows i s c r cs o files,
  ts_skipMass cf = false -> ts_filter cf = true -> length ids = length snaps -> length lines = length snaps -> run ids snaps lines = Ok rows ->
  nth_error snaps i = Some s -> s <> (-1)%Z -> nth_error lines i = Some (c, r, cs) -> read s = Some files ->
  good_shell o cs -> 0 < r -> (forall n, unit3 n -> 0 <= r * ts_width cf <= pd_radius o cs n \/ ts_width cf < 0) ->
  (forall n, unit3 n -> pd_radius o cs n + Rmax 0 (r * ts_width cf) <= r) -> (forall f, In f files -> good_file c f) ->
  (forall f, In f files -> ~ In c (f_xs (fst f))) ->
  exists row angles lo hi Is, nth_error rows i = Some row /\ length angles = S (ts_samples cf) /\ sampled_range o cs angles lo hi /\ Permutation (w_ids row) Is /\
    picked (fun x => let d := sub3 x c in let delta := r * ts_width cf in
      if Rlt_dec (ts_width cf) 0 then norm3 d < hi /\ inside_pd o cs d
      else lo - delta < norm3 d < hi + delta /\ near_pd o cs delta d) (with_ids files) Is.
Proof.
  intros ids snaps lines rows i s c r cs o files Sk Fl L1 L2 E Hi Ne Hln Hrd Gs Hr Hd Hb Gf Nc.
  destruct (stats_rows_at eigen ratios cf workers draw arrive Hw Ha enum read ids snaps lines rows He L1 L2 E) as [_ H]. destruct (H i s Hi) as [_ H']. destruct (H' Ne) as (idxs & ls & j & shape & f0 & fs & row & Hl & Hj & Er & Erow & K). clear H H'.
  destruct (K _ Hln) as (Hlj & Esh & _ & K'). clear K. rewrite Hrd in Er. injection Er as ->. destruct Gs as (Ho & Lc & Hp). destruct (shell_of_ok cs o Ho Lc) as (sh & Esf & Hsh).
  destruct (K' Sk c r cs sh eq_refl Esf) as (_ & _ & Ei). { intros f Hf. destruct (Gf f Hf) as (A & B & _). split; auto. }
  set (lo := fst (range_sp cf draw s j 4 sh)). set (hi := snd (range_sp cf draw s j 4 sh)). pose proof (range_props s j o cs sh Hsh) as Rg. fold lo hi in Rg.
  destruct (range_pos o cs _ lo hi (conj Ho (conj Lc Hp)) Rg) as (Plo & Phi & Hlh).
  exists row, (map (draw s j 4) (seq 0 (S (ts_samples cf)))), lo, hi. eexists. split; [exact Erow|]. split; [rewrite map_length, seq_length; reflexivity|]. split; [exact Rg|]. split.
  - rewrite Ei. unfold row_shape in Esh. cbn [snd] in Esh. rewrite Esf in Esh. destruct (shell_axes eigen ratios sh _) as [[[[? ?] ?] ?]|]; [|discriminate]. destruct (range_sp cf draw s j 3 sh). injection Esh as <-. cbn [w_ids app]. rewrite Fl. reflexivity.
  - assert (Blo : hi + Rmax 0 (r * ts_width cf) <= r). { destruct Rg as (_ & (b & Ib & Eb) & _). rewrite Eb. apply Hb, direction_unit. }
    apply (picked_files _ snd (file_ids cf draw s j sh c r) (fun f => existsb (line_meets (fst f)) ls && true)).
    + intros f Hf. unfold file_ids. fold lo hi. apply picks_all; [|apply (Gf f Hf)]. intros x Hx. destruct (Gf f Hf) as (_ & _ & Gx). destruct (Gx x Hx) as [_ U]. unfold keep_test. rewrite (displacement_unwrapped _ _ _ U).
      destruct (sub3 x c) as [[a b] d] eqn:Es. destruct (Rlt_dec (ts_width cf) 0) as [Hn|Hn].
      * apply keep_inside_iff; auto; [lra|]. intros K. apply (Nc f Hf). replace c with x; [exact Hx|]. destruct x as [[x y] z], c as [[cx cy] cz]. unfold sub3 in Es. rewrite K in Es. injection Es as ? ? ?. f_equal; [f_equal|]; lra.
      * apply keep_near_iff; auto; try lra. destruct Rg as ((q & Iq & Eq) & _). destruct (Hd _ (direction_unit q)) as [?|?]; lra.
    + intros f Hf Ef x Hx. rewrite andb_true_r in Ef. pose proof (meets_far f ls j c r cs x Hlj Ef (Gf f Hf) Hr Hx) as Far. pose proof (Rmax_l 0 (r * ts_width cf)). pose proof (Rmax_r 0 (r * ts_width cf)). cbv zeta. destruct (Rlt_dec (ts_width cf) 0); lra.
Qed.

(** ** C182: SkipMass *)
Theorem C182_skip_mass : forall ids snaps lines rows, ts_skipMass cf = true -> length ids = length snaps -> length lines = length snaps -> run ids snaps lines = Ok rows ->
  length rows = length snaps /\ forall i row, nth_error rows i = Some row -> w_mass row = 0 /\ w_ids row = [].
Proof.
  intros ids snaps lines rows Sk L1 L2 E. destruct (stats_rows_at eigen ratios cf workers draw arrive Hw Ha enum read ids snaps lines rows He L1 L2 E) as [Lr H]. split; [exact Lr|]. intros i row Hrow.
  assert (Hlt : (i < length snaps)%nat) by (rewrite <- Lr; apply nth_error_Some; rewrite Hrow; discriminate). destruct (nth_error snaps i) as [s|] eqn:Hi; [|apply nth_error_None in Hi; lia].
  destruct (H i s Hi) as [A B]. destruct (Z.eq_dec s (-1)) as [->|Ne]; [rewrite (A eq_refl) in Hrow; injection Hrow as <-; auto|].
  destruct (B Ne) as (idxs & ls & j & shape & f0 & fs & row' & _ & _ & _ & Erow & K). assert (row' = row) by congruence. subst row'.
  assert (Hln : exists ln, nth_error lines i = Some ln) by (destruct (nth_error lines i) as [ln|] eqn:Hln; [exists ln; reflexivity|apply nth_error_None in Hln; lia]). destruct Hln as [ln Hln]. destruct (K ln Hln) as (_ & Esh & Es & _). rewrite (Es Sk) in *. unfold row_shape in Esh. destruct (shell_of (snd ln)) as [sh|]; [|discriminate].
  destruct (shell_axes eigen ratios sh _) as [[[[? ?] ?] ?]|]; [|discriminate]. destruct (range_sp cf draw s j 3 sh). injection Esh as <-. auto.
Qed.

(** Placeholder lines get rows of zeros. *)
Theorem C182_placeholder_rows : forall ids snaps lines rows i, length ids = length snaps -> length lines = length snaps -> run ids snaps lines = Ok rows ->
  nth_error snaps i = Some (-1)%Z -> exists row, nth_error rows i = Some row /\ forall col, In col (stats_columns [row]) -> col = [0].
Proof.
  intros ids snaps lines rows i L1 L2 E Hi. destruct (stats_rows_at eigen ratios cf workers draw arrive Hw Ha enum read ids snaps lines rows He L1 L2 E) as [_ H]. destruct (H i _ Hi) as [A _]. exists zero_row. split; [auto|].
  intros col Hc. cbn in Hc. repeat (destruct Hc as [<-|Hc]; [reflexivity|]). contradiction.
Qed.
End S.
Print Assumptions C177_mass_partial.
Print Assumptions C177_mass_inside_partial.
Print Assumptions C179_ids_partial.
Print Assumptions C182_skip_mass.
Print Assumptions C182_placeholder_rows.

Lemma lt_nodup l : StronglySorted lt l -> NoDup l.
Proof. induction 1 as [|a l _ IH F]; constructor; [|exact IH]. intros Hin. rewrite Forall_forall in F. specialize (F a Hin). lia. Qed.

(** The other columns do not depend on SkipMass. *)
Theorem C182_other_columns : forall eigen ratios n fl wd workers draw arrive enum read ids snaps lines rows1 rows2, (0 < workers)%nat ->
  (forall snap fi j b, Permutation (arrive snap fi j b) (seq 0 workers)) -> (forall l, Permutation (enum l) l) -> length ids = length snaps -> length lines = length snaps ->
  (forall s files f, In s snaps -> read s = Some files -> In f files -> length (f_ms (fst f)) = length (f_xs (fst f)) /\ length (snd f) = length (f_xs (fst f))) ->
  stats_rows eigen ratios (mkStatsConf n true fl wd) workers draw arrive enum read ids snaps lines = Ok rows1 ->
  stats_rows eigen ratios (mkStatsConf n false fl wd) workers draw arrive enum read ids snaps lines = Ok rows2 ->
  tl (stats_columns rows1) = tl (stats_columns rows2).
Proof.
  intros eigen ratios n fl wd workers draw arrive enum read ids snaps lines rows1 rows2 Hw Ha He L1 L2 Hf E1 E2.
  destruct (stats_rows_at eigen ratios _ workers draw arrive Hw Ha enum read ids snaps lines rows1 He L1 L2 E1) as [Lr1 H1].
  destruct (stats_rows_at eigen ratios _ workers draw arrive Hw Ha enum read ids snaps lines rows2 He L1 L2 E2) as [Lr2 H2].
  assert (F : Forall2 same_shape rows1 rows2).
  { assert (G : forall l1 l2 : list stats_row, length l1 = length l2 -> (forall i a b, nth_error l1 i = Some a -> nth_error l2 i = Some b -> same_shape a b) -> Forall2 same_shape l1 l2).
    { induction l1 as [|a l1 IH]; intros [|b l2] L G; try discriminate; constructor; [apply (G 0%nat); reflexivity|]. apply IH; [cbn in L; lia|]. intros i a' b' A B. exact (G (S i) a' b' A B). }
    apply G; [congruence|]. intros i a b Hra Hrb.
    assert (Hlt : (i < length snaps)%nat) by (rewrite <- Lr1; apply nth_error_Some; rewrite Hra; discriminate). destruct (nth_error snaps i) as [s|] eqn:Hi; [|apply nth_error_None in Hi; lia].
    destruct (H1 i s Hi) as [A1 B1]. destruct (H2 i s Hi) as [A2 B2]. destruct (Z.eq_dec s (-1)) as [Es|Ne].
    { rewrite (A1 Es) in Hra. rewrite (A2 Es) in Hrb. injection Hra as <-. injection Hrb as <-. apply same_shape_refl. }
    destruct (B1 Ne) as (idxs1 & ls1 & j1 & sh1 & f01 & fs1 & r1 & Hl1 & Hj1 & Er1 & Erow1 & K1). destruct (B2 Ne) as (idxs2 & ls2 & j2 & sh2 & f02 & fs2 & r2 & Hl2 & Hj2 & Er2 & Erow2 & K2).
    assert (r1 = a) by congruence. assert (r2 = b) by congruence. subst r1 r2. destruct (lines_of_unique _ _ _ _ _ _ _ Hl1 Hl2) as [<- <-].
    assert (Hln : exists ln, nth_error lines i = Some ln) by (destruct (nth_error lines i) as [ln|] eqn:Hln; [exists ln; reflexivity|apply nth_error_None in Hln; lia]). destruct Hln as [ln Hln]. destruct (K1 ln Hln) as (Hlj1 & Esh1 & Es1 & _). destruct (K2 ln Hln) as (Hlj2 & Esh2 & _ & Es2). specialize (Es1 eq_refl). specialize (Es2 eq_refl). subst sh1.
    assert (j1 = j2). { destruct Hl1 as (Hs & _ & _). apply lt_nodup in Hs. rewrite NoDup_nth_error in Hs. apply Hs; [apply nth_error_Some; rewrite Hj1; discriminate|congruence]. }
    subst j2. assert (Q : row_shape eigen ratios (mkStatsConf n true fl wd) draw s j1 ln = row_shape eigen ratios (mkStatsConf n false fl wd) draw s j1 ln) by reflexivity. rewrite Q, Esh2 in Esh1. injection Esh1 as <-.
    destruct ln as [[c r] cs]. unfold row_shape in Esh2. cbn [snd] in Esh2. destruct (shell_of cs) as [sh|] eqn:Ef; [|discriminate].
    destruct (Es2 c r cs sh eq_refl Ef) as (R & _); [|exact R]. intros f Hff. destruct (Hf s (f02 :: fs2) f) as [A B]; [eapply nth_error_In; eauto|exact Er2|exact Hff|]. split; auto. }
  clear -F. unfold stats_columns. cbn [tl]. induction F as [|a b l1 l2 (A1 & A2 & A3 & A4 & A5 & A6 & A7 & A8 & A9) F IH]; [reflexivity|]. cbn [map]. injection IH as -> -> -> -> -> -> -> -> -> -> ->. rewrite A1, A2, A3, A4, A5, A6, A7, A8, A9. reflexivity.
Qed.
Print Assumptions C182_other_columns.

(** ** Runs succeed *)
Lemma each_line_total {A B} (g : nat -> line -> A -> option B) lines : forall j0 l, length l = length lines -> (forall j ln a, In ln lines -> exists b, g j ln a = Some b) -> exists bs, each_line g j0 lines l = Some bs.
Proof.
  induction lines as [|ln lines IH]; intros j0 [|a l] L H; try discriminate; [eexists; reflexivity|]. cbn [each_line]. destruct (H j0 ln a (or_introl eq_refl)) as [b ->].
  destruct (IH (S j0) l) as [bs ->]; [cbn in L; lia|intros; apply H; right; assumption|]. eexists. reflexivity.
Qed.
Lemma stats_rows_total eigen ratios cf workers draw arrive enum read ids snaps lines : (0 < workers)%nat ->
  (forall snap fi j b, Permutation (arrive snap fi j b) (seq 0 workers)) -> (forall l, Permutation (enum l) l) -> length ids = length snaps -> length lines = length snaps ->
  (forall m, exists e, eigen m = Some e) -> (forall a b, exists t, ratios a b = Some t) ->
  (forall c r cs, In (c, r, cs) lines -> exists o, (1 <= o)%nat /\ length cs = (2 * o * o)%nat) ->
  (forall s, In s snaps -> exists f fs, read s = Some (f :: fs) /\ forall g, In g (f :: fs) -> length (f_ms (fst g)) = length (f_xs (fst g)) /\ length (snd g) = length (f_xs (fst g))) ->
  exists rows, stats_rows eigen ratios cf workers draw arrive enum read ids snaps lines = Ok rows.
Proof.
  intros Hw Ha He L1 L2 Te Tr Hc Hf.
  destruct (stats_loop_rows (stats_proc eigen ratios cf workers draw arrive read) enum snaps ids lines (repeat zero_row (length snaps)) He L1 L2 (repeat_length _ _)) as (rows & E & _); [|exists rows; exact E].
  intros s idxs rows Hs Ne (_ & _ & M). assert (Hin : forall ln, In ln rows -> exists sh, shell_of (snd ln) = Some sh).
  { intros [[c r] cs] Hl. assert (K : In (Some ((c, r, cs) : line)) (map (@nth_error line lines) idxs)) by (rewrite M; apply (in_map (@Some line)); exact Hl). apply in_map_iff in K. destruct K as (i & Ei & _). apply nth_error_In in Ei. destruct (Hc c r cs Ei) as (o & Ho & Lc).
    destruct (shell_of_ok cs o Ho Lc) as (sh & E & _). exists sh. exact E. }
  assert (P : exists ys, stats_proc eigen ratios cf workers draw arrive read s rows = Ok ys).
  { unfold stats_proc. destruct (each_line_total (fun j ln (_ : line) => row_shape eigen ratios cf draw s j ln) rows 0%nat rows eq_refl) as [r0 E0].
    { intros j ln _ Hl. unfold row_shape. destruct (Hin ln Hl) as [sh ->]. unfold shell_axes. destruct (Te (axes_matrix (shell_moments sh (angles cf draw s j 2)))) as [[[[Ix Iy] Iz] [[v0 v1] v2]] ->].
      destruct (axes_of_eigenvalues Ix Iy Iz) as [[[c b] a] k]. destruct (Tr (a / c) (b / c)) as [[[t1 t2] t3] ->]. destruct (match k with O => v0 | 1%nat => v1 | _ => v2 end) as [[x y] z]. destruct (range_sp cf draw s j 3 sh). eexists. reflexivity. }
    rewrite E0. assert (L0 : length r0 = length rows) by (eapply (each_line_len _ rows 0%nat rows); eauto). destruct (Hf s Hs) as (f & fs & -> & Hfs). destruct (ts_skipMass cf); [eexists; reflexivity|].
    assert (G : forall files, (forall g, In g files -> In g (f :: fs)) -> forall fi r, length r = length rows -> exists r', row_files cf workers draw arrive s fi rows files r = Some r').
    { induction files as [|g files IH]; intros Hg fi r Lr; cbn [row_files]; [eexists; reflexivity|]. destruct (existsb (line_meets (fst g)) rows); [|apply IH; [intros; apply Hg; right; assumption|exact Lr]].
      destruct (each_line_total (row_file cf workers draw arrive s fi g) rows 0%nat r Lr) as [r1 E1].
      { intros j [[c rr] cs] row Hl. unfold row_file. destruct (Hin _ Hl) as [sh Es]. cbn [snd] in Es. rewrite Es. destruct (range_sp cf draw s j 4 sh) as [lo hi]. destruct (Hfs g (Hg g (or_introl eq_refl))) as [Lm Li].
        rewrite (mass_contained_all sh c lo hi (fst g) workers _ Hw (Ha s fi j false) Lm). destruct (ts_filter cf); [|eexists; reflexivity]. destruct g as [g gi]. cbn [fst snd] in *.
        destruct (append_all sh c lo hi g workers _ Hw (Ha s fi j true) gi rr (ts_width cf) Li (w_ids row)) as (l & -> & _). eexists. reflexivity. }
      rewrite E1. apply IH; [intros; apply Hg; right; assumption|]. eapply each_line_len; eauto. }
    destruct (G (f :: fs) (fun g H => H) 0%nat r0 L0) as [r' ->]. eexists. reflexivity. }
  destruct P as [ys P]. exists ys. split; [exact P|]. eapply stats_proc_len; eauto.
Qed.

(** ** A concrete run *)
Definition ex_eigen (m : list (list R)) : option ((R * R * R) * (vec * vec * vec)) := Some ((1, 1, 1), ((1, 0, 0), (0, 1, 0), (0, 0, 1))).
Definition ex_ratios (a b : R) : option (R * R * R) := Some (1, 1, 1).
Definition ex_conf : StatsConf := mkStatsConf 3 false true (-1).
Definition ex_draw (s : Z) (j k n : nat) : R * R := (INR n, 1).
Definition ex_arrive (s : Z) (fi j : nat) (b : bool) : list nat := [1; 0]%nat.
(** A particle of mass 5 and id 7 at (23/2, 10, 10). *)
Definition ex_file : idfile := (mkPFile (23 / 2, 9, 9) (1, 2, 2) 100 1 [(23 / 2, 10, 10)] [5], [7%Z]).
Definition ex_read (s : Z) : option (list idfile) := Some [ex_file].
Notation ex_run := (stats_rows ex_eigen ex_ratios ex_conf 2 ex_draw ex_arrive (fun l => l) ex_read).
(** A spherical shell of radius 2 around (10, 10, 10) with R200m = rr. *)
Definition ex_line (rr : R) : line := ((10, 10, 10), rr, [2; 0]).

Lemma ex_arrive_ok : forall snap fi j b, Permutation (ex_arrive snap fi j b) (seq 0 2).
Proof. intros. unfold ex_arrive. cbn [seq]. apply perm_swap. Qed.
Lemma ex_total ids snaps lines : length ids = length snaps -> length lines = length snaps -> (forall c r cs, In (c, r, cs) lines -> length cs = 2%nat) -> exists rows, ex_run ids snaps lines = Ok rows.
Proof.
  intros L1 L2 Hc. apply stats_rows_total; auto using ex_arrive_ok; try (intros; eexists; reflexivity).
  - intros c r cs Hin. exists 1%nat. split; [lia|]. rewrite (Hc c r cs Hin). reflexivity.
  - intros s _. exists ex_file, []. split; [reflexivity|]. intros g [<-|[]]. split; reflexivity.
Qed.
Lemma ex_radius a b n : pd_radius 1 [a; b] n = a + b * snd n.
Proof. destruct n as [[x y] z]. unfold pd_radius, sum_n. cbn. ring. Qed.
Lemma ex_shell : good_shell 1 [2; 0].
Proof. split; [lia|]. split; [reflexivity|]. intros n _. rewrite ex_radius. lra. Qed.
Lemma ex_good : forall f, In f [ex_file] -> good_file (10, 10, 10) f.
Proof.
  intros f [<-|[]]. split; [reflexivity|]. split; [reflexivity|]. cbn. intros x [<-|[]]. unfold unwrapped, sub3. split; [lra|]. rewrite !Rabs_right by lra. lra.
Qed.
Lemma ex_dist : norm3 (sub3 (23 / 2, 10, 10) (10, 10, 10)) = 3 / 2.
Proof. unfold norm3, sub3, dot3. replace ((23 / 2 - 10) * (23 / 2 - 10) + (10 - 10) * (10 - 10) + (10 - 10) * (10 - 10)) with ((3 / 2) * (3 / 2)) by field. apply sqrt_square. lra. Qed.
Lemma ex_inside : inside_pd 1 [2; 0] (sub3 (23 / 2, 10, 10) (10, 10, 10)).
Proof. exists (3 / 2), (1, 0, 0). split; [lra|]. split; [unfold unit3, dot3; ring|]. split; [unfold sub3, scale3; f_equal; [f_equal|]; lra|]. rewrite ex_radius. cbn [snd]. lra. Qed.

(** With R200m = 3 the particle counts. *)
Example C177_nonvacuous : exists rows row, ex_run [1%Z] [4%Z] [ex_line 3] = Ok rows /\ nth_error rows 0 = Some row /\ w_mass row = 5.
Proof.
  destruct (ex_total [1%Z] [4%Z] [ex_line 3] eq_refl eq_refl) as [rows E]; [intros c r cs [[= <- <- <-]|[]]; reflexivity|].
  destruct (C177_mass_inside_partial ex_eigen ex_ratios ex_conf 2 ex_draw ex_arrive (fun l => l) ex_read ltac:(lia) ex_arrive_ok (fun l => Permutation_refl l)
    [1%Z] [4%Z] [ex_line 3] rows 0%nat 4%Z (10, 10, 10) 3 [2; 0] 1%nat [ex_file] eq_refl eq_refl eq_refl E eq_refl ltac:(lia) eq_refl eq_refl ex_shell ltac:(lra)) as (row & Ms & Hr & Hp & Hm).
  - intros n _. rewrite ex_radius. lra. - exact ex_good.
  - intros j n _. exists (ex_draw 4 j 4 0), (ex_draw 4 j 4 0). split; [left; reflexivity|]. split; [left; reflexivity|]. rewrite !ex_radius. lra.
  - exists rows, row. split; [exact E|]. split; [exact Hr|]. rewrite Hm. cbn in Hp. inversion Hp as [|x v l L H1 H2|x v l L H1 H2]; subst; [|exfalso; apply H1; right; exact ex_inside]. inversion H2; subst. unfold total. cbn. lra.
Qed.

Example C179_nonvacuous : exists rows row, ex_run [1%Z] [4%Z] [ex_line 3] = Ok rows /\ nth_error rows 0 = Some row /\ w_ids row = [7%Z].
Proof.
  destruct (ex_total [1%Z] [4%Z] [ex_line 3] eq_refl eq_refl) as [rows E]; [intros c r cs [[= <- <- <-]|[]]; reflexivity|].
  destruct (C179_ids_partial ex_eigen ex_ratios ex_conf 2 ex_draw ex_arrive (fun l => l) ex_read ltac:(lia) ex_arrive_ok (fun l => Permutation_refl l)
    [1%Z] [4%Z] [ex_line 3] rows 0%nat 4%Z (10, 10, 10) 3 [2; 0] 1%nat [ex_file] eq_refl eq_refl eq_refl eq_refl E eq_refl ltac:(lia) eq_refl eq_refl ex_shell ltac:(lra)) as (row & angles & lo & hi & Is & Hr & La & Rg & Hp & Hk).
  - intros n _. right. cbn. lra.
  - intros n _. rewrite ex_radius. cbn [ts_width ex_conf]. rewrite Rmax_left by lra. lra.
  - exact ex_good.
  - intros f [<-|[]]. cbn. intros [K|[]]. injection K as K. lra.
  - exists rows, row. split; [exact E|]. split; [exact Hr|]. cbn in Hk. destruct (Rlt_dec (-1) 0) as [_|?]; [|lra].
    assert (Hhi : hi = 2). { destruct Rg as (_ & (a & _ & Ea) & _). rewrite Ea, ex_radius. lra. }
    inversion Hk as [|x v l L H1 H2|x v l L H1 H2]; subst; [|exfalso; apply H1; split; [rewrite ex_dist; lra|exact ex_inside]]. inversion H2; subst. apply Permutation_length_1_inv. symmetry. exact Hp.
Qed.

(** ** C178: a row and the other lines of the catalogue *)
(** The files that are read are those that meet the R200m sphere of one of the halos of the snapshot. A particle inside of the shell but in a file beyond R200m is missed; it
    counts if the catalogue also holds another halo near to it. *)
Theorem C178_other_halos_refuted : let other : line := ((12, 10, 10), 1, [1 / 2; 0]) in
  inside_pd 1 [2; 0] (sub3 (23 / 2, 10, 10) (10, 10, 10)) /\
  (exists rows row, ex_run [1%Z] [4%Z] [ex_line 1] = Ok rows /\ nth_error rows 0 = Some row /\ w_mass row = 0) /\
  (exists rows row, ex_run [1; 2]%Z [4; 4]%Z [ex_line 1; other] = Ok rows /\ nth_error rows 0 = Some row /\ w_mass row = 5).
Proof.
  intros other. split; [exact ex_inside|].
  assert (Far : line_meets (fst ex_file) (ex_line 1) = false).
  { unfold line_meets, ex_line, ex_file. cbn [fst f_origin f_width f_tw]. unfold sheet_intersect, in_range, wrap_dist. cbv zeta.
    repeat (match goal with |- context [Rltb ?a ?b] =>
      lazymatch a with context [Rltb] => fail | context [if _ then _ else _] => fail | _ => 
      lazymatch b with context [Rltb] => fail | context [if _ then _ else _] => fail | _ => destruct (Rltb_spec a b); try (exfalso; lra); cbn [andb orb] end end end).
    all: first [reflexivity|exfalso; lra]. }
  assert (Near : line_meets (fst ex_file) other = true).
  { unfold line_meets, other, ex_file. cbn [fst f_origin f_width f_tw]. unfold sheet_intersect, in_range, wrap_dist. cbv zeta.
    repeat (match goal with |- context [Rltb ?a ?b] =>
      lazymatch a with context [Rltb] => fail | context [if _ then _ else _] => fail | _ => 
      lazymatch b with context [Rltb] => fail | context [if _ then _ else _] => fail | _ => destruct (Rltb_spec a b); try (exfalso; lra); cbn [andb orb] end end end).
    all: first [reflexivity|exfalso; lra]. }
  destruct (shell_of_ok [2; 0] 1%nat ltac:(lia) eq_refl) as (sh & Esf & Hsh).
  assert (W0 : forall s j shape, row_shape ex_eigen ex_ratios ex_conf ex_draw s j (ex_line 1) = Some shape -> w_mass shape = 0).
  { intros s j shape E. unfold row_shape, ex_line in E. cbn [snd] in E. rewrite Esf in E. destruct (shell_axes ex_eigen ex_ratios sh _) as [[[[? ?] ?] ?]|]; [|discriminate]. destruct (range_sp ex_conf ex_draw s j 3 sh). injection E as <-. reflexivity. }
  assert (Ok1 : forall f, In f [ex_file] -> file_ok ex_conf f) by (intros f [<-|[]]; split; reflexivity).
  assert (Uniq : forall snaps (ls' : list line) s idxs ls, lines_of snaps ls' s idxs ls -> forall idxs2 ls2, lines_of snaps ls' s idxs2 ls2 -> ls = ls2) by (intros; eapply lines_of_unique; eauto).
  split.
  - destruct (ex_total [1%Z] [4%Z] [ex_line 1] eq_refl eq_refl) as [rows E]; [intros c r cs [[= <- <- <-]|[]]; reflexivity|].
    destruct (stats_rows_at ex_eigen ex_ratios ex_conf 2 ex_draw ex_arrive ltac:(lia) ex_arrive_ok (fun l => l) ex_read [1%Z] [4%Z] [ex_line 1] rows (fun l => Permutation_refl l) eq_refl eq_refl E) as [_ H]. destruct (H 0%nat 4%Z eq_refl) as [_ H']. destruct (H' ltac:(lia)) as (idxs & ls & j & shape & f0 & fs & row & Hl & Hj & Er & Erow & K).
    injection Er as <- <-. destruct (K _ eq_refl) as (_ & Esh & _ & K'). destruct (K' eq_refl (10, 10, 10) 1 [2; 0] sh eq_refl Esf Ok1) as (_ & Em & _).
    exists rows, row. split; [exact E|]. split; [exact Erow|]. rewrite Em, (W0 _ _ _ Esh).
    assert (Els : ls = [ex_line 1]). { apply (Uniq _ _ _ _ _ Hl [0%nat]). split; [repeat constructor|]. split; [|reflexivity]. intros [|[|i]]; cbn; split; try discriminate; auto; intros [?|[]]; discriminate. }
    rewrite Els. cbn [flat_map existsb]. rewrite Far. unfold total. cbn. lra.
  - destruct (ex_total [1; 2]%Z [4; 4]%Z [ex_line 1; other] eq_refl eq_refl) as [rows E]; [intros c r cs [[= <- <- <-]|[[= <- <- <-]|[]]]; reflexivity|].
    destruct (stats_rows_at ex_eigen ex_ratios ex_conf 2 ex_draw ex_arrive ltac:(lia) ex_arrive_ok (fun l => l) ex_read [1; 2]%Z [4; 4]%Z [ex_line 1; other] rows (fun l => Permutation_refl l) eq_refl eq_refl E) as [_ H]. destruct (H 0%nat 4%Z eq_refl) as [_ H']. destruct (H' ltac:(lia)) as (idxs & ls & j & shape & f0 & fs & row & Hl & Hj & Er & Erow & K).
    injection Er as <- <-. destruct (K _ eq_refl) as (_ & Esh & _ & K'). destruct (K' eq_refl (10, 10, 10) 1 [2; 0] sh eq_refl Esf Ok1) as (_ & Em & _).
    exists rows, row. split; [exact E|]. split; [exact Erow|]. rewrite Em, (W0 _ _ _ Esh).
    assert (Els : ls = [ex_line 1; other]). { apply (Uniq _ _ _ _ _ Hl [0; 1]%nat). split; [repeat constructor|]. split; [|reflexivity]. intros [|[|[|i]]]; cbn; split; try discriminate; auto; intros [?|[?|[]]]; discriminate. }
    rewrite Els. cbn [flat_map existsb]. rewrite Near, Bool.orb_true_r. cbn [orb]. rewrite app_nil_r.
    assert (Rg := range_props ex_conf ex_draw 4%Z j 1%nat [2; 0] sh Hsh). set (lo := fst (range_sp ex_conf ex_draw 4 j 4 sh)) in *. set (hi := snd (range_sp ex_conf ex_draw 4 j 4 sh)) in *.
    destruct (range_pos 1 [2; 0] _ lo hi ex_shell Rg) as (Plo & Phi & _).
    assert (Hlo : lo = 2). { destruct Rg as ((a & _ & Ea) & _). rewrite Ea, ex_radius. lra. }
    unfold file_masses. fold lo hi. assert (T : in_test sh (10, 10, 10) lo hi (fst ex_file) (23 / 2, 10, 10) = true).
    { apply (in_test_iff 1 [2; 0] sh (10, 10, 10) lo hi ex_file); auto; [apply ex_good; left; reflexivity|left; reflexivity|]. left. rewrite ex_dist. lra. }
    cbn [f_xs f_ms ex_file fst length seq picks flat_map nth_error]. unfold picks. cbn [flat_map nth_error]. change (fst ex_file) with (mkPFile (23 / 2, 9, 9) (1, 2, 2) 100 1 [(23 / 2, 10, 10)] [5]) in T. rewrite T. unfold total. cbn. lra.
Qed.
Print Assumptions C178_other_halos_refuted.

(** ** The file of shell particles *)
Lemma int64s_eq_refl l : int64s_eq l l = true.
Proof. induction l as [|x l IH]; [reflexivity|]. cbn. rewrite Z.eqb_refl. exact IH. Qed.
Lemma same_data_refl d : same_data d d = true.
Proof.
  unfold same_data. rewrite !int64s_eq_refl, Nat.eqb_refl. cbn [andb]. induction (FilterModel.f_particles d) as [|p l IH]; [reflexivity|]. cbn. rewrite int64s_eq_refl. exact IH.
Qed.

(** The file holds, in the order of the catalogue, snapshot, id and particle ids of every line. *)
Theorem C179_file : forall eigen ratios cf workers draw arrive sys flag o enum read ids snaps lines rows, ts_filter cf = true -> ts_skipMass cf = false ->
  stats_rows eigen ratios cf workers draw arrive enum read ids snaps lines = Ok rows -> FilterSpec.flag_means sys flag o ->
  FilterSpec.good_data {| FilterModel.f_snaps := snaps; FilterModel.f_ids := ids; FilterModel.f_particles := map w_ids rows |} ->
  exists file, stats_output eigen ratios cf workers draw arrive true sys flag enum read ids snaps lines = (Ok rows, Some file) /\
    FilterModel.read_filter file = Ok {| FilterModel.f_snaps := snaps; FilterModel.f_ids := ids; FilterModel.f_particles := map w_ids rows |}.
Proof.
  intros eigen ratios cf workers draw arrive sys flag o enum read ids snaps lines rows Hf Hs E Fl Gd. destruct (Props_Filter.C22_round_trip sys flag o _ Fl Gd) as (f & W & Rd). exists f. split; [|exact Rd].
  unfold stats_output. rewrite E, Hf, Hs. cbn [andb negb]. unfold write_shell_particles. cbn [negb]. rewrite W, Rd, same_data_refl. reflexivity.
Qed.
Print Assumptions C179_file.

(** With SkipMass there is no such file. *)
Theorem C182_no_file : forall eigen ratios cf workers draw arrive create sys flag enum read ids snaps lines, ts_skipMass cf = true \/ ts_filter cf = false ->
  snd (stats_output eigen ratios cf workers draw arrive create sys flag enum read ids snaps lines) = None.
Proof.
  intros. unfold stats_output. destruct (stats_rows eigen ratios cf workers draw arrive enum read ids snaps lines); try reflexivity. destruct H as [-> | ->]; [rewrite andb_comm|]; reflexivity.
Qed.
Print Assumptions C182_no_file.

(** ** C180: errors while writing the file *)
(** If the file cannot be created the mode still succeeds. *)
Theorem C180_write_error_refuted : forall eigen ratios cf workers draw arrive sys flag enum read ids snaps lines rows, ts_filter cf = true -> ts_skipMass cf = false ->
  stats_rows eigen ratios cf workers draw arrive enum read ids snaps lines = Ok rows ->
  stats_output eigen ratios cf workers draw arrive false sys flag enum read ids snaps lines = (Ok rows, None).
Proof. intros eigen ratios cf workers draw arrive sys flag enum read ids snaps lines rows Hf Hs E. unfold stats_output. rewrite E, Hf, Hs. reflexivity. Qed.
Print Assumptions C180_write_error_refuted.

Example C180_nonvacuous : exists rows, stats_output ex_eigen ex_ratios ex_conf 2 ex_draw ex_arrive false BytesModel.LE (lit "LittleEndian") (fun l => l) ex_read [1%Z] [4%Z] [ex_line 3] = (Ok rows, None).
Proof. destruct C177_nonvacuous as (rows & row & E & _). exists rows. apply C180_write_error_refuted; auto. Qed.
Example C179_file_nonvacuous : exists rows file, stats_output ex_eigen ex_ratios ex_conf 2 ex_draw ex_arrive true BytesModel.LE (lit "LittleEndian") (fun l => l) ex_read [1%Z] [4%Z] [ex_line 3] = (Ok rows, Some file) /\
  FilterModel.read_filter file = Ok {| FilterModel.f_snaps := [4%Z]; FilterModel.f_ids := [1%Z]; FilterModel.f_particles := [[7%Z]] |}.
Proof.
  destruct C179_nonvacuous as (rows & row & E & Hr & Hi). assert (Lr : length rows = 1%nat) by (apply (stats_rows_at ex_eigen ex_ratios ex_conf 2 ex_draw ex_arrive ltac:(lia) ex_arrive_ok (fun l => l) ex_read [1%Z] [4%Z] [ex_line 3] rows (fun l => Permutation_refl l) eq_refl eq_refl E)).
  destruct rows as [|row' [|? ?]]; try discriminate. injection Hr as ->. exists [row].
  assert (Gd : FilterSpec.good_data {| FilterModel.f_snaps := [4%Z]; FilterModel.f_ids := [1%Z]; FilterModel.f_particles := map w_ids [row] |}).
  { cbn [map]. rewrite Hi. split; cbn; try lia; repeat constructor; cbn; lia. }
  destruct (C179_file ex_eigen ex_ratios ex_conf 2 ex_draw ex_arrive BytesModel.LE (lit "LittleEndian") BytesModel.LE (fun l => l) ex_read _ _ _ _ eq_refl eq_refl E (or_introl (conj eq_refl eq_refl)) Gd) as (file & Eo & Rd).
  exists file. split; [exact Eo|]. rewrite Rd. cbn [map]. rewrite Hi. reflexivity.
Qed.

(** ** C181: ExclusionStrategy *)
(** Whatever the strategy, no halo is removed: there is a row for every line of the catalogue. *)
Theorem C181_exclusion_refuted : forall conf eigen ratios workers draw arrive enum read ids snaps lines rows, ModeConfModel.sc_excl conf = lit "contain" -> ModeConfModel.stats_validate conf = true ->
  (0 < workers)%nat -> (forall snap fi j b, Permutation (arrive snap fi j b) (seq 0 workers)) -> (forall l, Permutation (enum l) l) -> length ids = length snaps -> length lines = length snaps ->
  stats_rows eigen ratios (used_conf conf) workers draw arrive enum read ids snaps lines = Ok rows -> length rows = length lines.
Proof.
  intros conf eigen ratios workers draw arrive enum read ids snaps lines rows _ _ Hw Ha He L1 L2 E. rewrite L2. apply (stats_rows_at eigen ratios (used_conf conf) workers draw arrive Hw Ha enum read ids snaps lines rows He L1 L2 E).
Qed.
Print Assumptions C181_exclusion_refuted.
(** More generally the output is the same for all strategies and all Values. *)
Theorem C181_ignored : forall eigen ratios workers draw arrive create sys flag enum read ids snaps lines c c', ModeConfModel.sc_samples c = ModeConfModel.sc_samples c' ->
  ModeConfModel.sc_skip c = ModeConfModel.sc_skip c' -> ModeConfModel.sc_filter c = ModeConfModel.sc_filter c' -> ModeConfModel.sc_width c = ModeConfModel.sc_width c' ->
  stats_output eigen ratios (used_conf c) workers draw arrive create sys flag enum read ids snaps lines = stats_output eigen ratios (used_conf c') workers draw arrive create sys flag enum read ids snaps lines.
Proof. intros until c'. intros A B C D. unfold used_conf. rewrite A, B, C, D. reflexivity. Qed.
Print Assumptions C181_ignored.

(** Two concentric halos, the second one within the shell of the first one: both are in the output. *)
Example C181_nonvacuous : let conf := ModeConfModel.mkStatsConf [] 3 (lit "contain") 1 [] 0 true false in
  ModeConfModel.stats_validate conf = true /\ inside_pd 1 [2; 0] (sub3 (23 / 2, 10, 10) (10, 10, 10)) /\
  exists rows, stats_rows ex_eigen ex_ratios (used_conf conf) 2 ex_draw ex_arrive (fun l => l) ex_read [1; 2]%Z [4; 4]%Z [ex_line 3; ((23 / 2, 10, 10), 1 / 4, [1 / 4; 0])] = Ok rows /\ length rows = 2%nat.
Proof.
  intros conf. split; [reflexivity|]. split; [exact ex_inside|].
  destruct (stats_rows_total ex_eigen ex_ratios (used_conf conf) 2 ex_draw ex_arrive (fun l => l) ex_read [1; 2]%Z [4; 4]%Z [ex_line 3; ((23 / 2, 10, 10), 1 / 4, [1 / 4; 0])]) as [rows E]; auto using ex_arrive_ok; try (intros; eexists; reflexivity).
  - intros c r cs Hin. exists 1%nat. split; [lia|]. destruct Hin as [[= <- <- <-]|[[= <- <- <-]|[]]]; reflexivity.
  - intros s _. exists ex_file, []. split; [reflexivity|]. intros g [<-|[]]. split; reflexivity.
  - exists rows. split; [exact E|]. apply (C181_exclusion_refuted conf ex_eigen ex_ratios 2 ex_draw ex_arrive (fun l => l) ex_read [1; 2]%Z [4; 4]%Z [ex_line 3; ((23 / 2, 10, 10), 1 / 4, [1 / 4; 0])] rows eq_refl eq_refl ltac:(lia) ex_arrive_ok (fun l => Permutation_refl l) eq_refl eq_refl E).
Qed.

(** ** C183: the header *)
Theorem C183_header : stats_header = Some (lit "# Column contents: ID(0) Snapshot(1) M_sp [M_sun/h](2) R_sp [cMpc/h](3) Volume [cMpc^3/h^3](4) Surface Area [cMpc^2/h^2](5) Major Axis [cMpc/h](6) Intermediate Axis [cMpc/h](7) Minor Axis [cMpc/h](8) Ax(9) Ay(10) Az(11) RMin [cMpc/h](12) RMax [cMpc/h](13)").
Proof. vm_compute. reflexivity. Qed.
Print Assumptions C183_header.

(** Column k of the header (with ID and Snapshot before) holds what its name says, in the row of the line. *)
Theorem C183_layout : forall rows, length (stats_columns rows) = 12%nat /\ forall i w, nth_error rows i = Some w ->
  let column k := nth i (nth (k - 2) (stats_columns rows) []) 0 in
  column 2%nat = w_mass w /\ column 3%nat = w_rad w /\ column 4%nat = w_vol w /\ column 5%nat = w_sa w /\ column 6%nat = w_a w /\ column 7%nat = w_b w /\ column 8%nat = w_c w /\
  (column 9%nat, column 10%nat, column 11%nat) = w_avec w /\ column 12%nat = w_rmin w /\ column 13%nat = w_rmax w.
Proof.
  intros rows. split; [reflexivity|]. intros i w Hw. cbv zeta. assert (G : forall f : stats_row -> R, nth i (map f rows) 0 = f w).
  { intros f. apply nth_error_nth. rewrite nth_error_map, Hw. reflexivity. }
  cbn [Nat.sub nth stats_columns]. rewrite !G. destruct (w_avec w) as [[x y] z]. repeat split.
Qed.
Print Assumptions C183_layout.
Example C183_nonvacuous : nth 0 (nth (6 - 2) (stats_columns [{| w_mass := 1; w_rad := 2; w_vol := 3; w_sa := 4; w_a := 9; w_b := 8; w_c := 7; w_avec := (0, 0, 1); w_rmin := 5; w_rmax := 6; w_ids := [] |}]) []) 0 = 9.
Proof. reflexivity. Qed.

Example C182_nonvacuous : exists rows row, stats_rows ex_eigen ex_ratios (mkStatsConf 3 true true (-1)) 2 ex_draw ex_arrive (fun l => l) ex_read [1; 2]%Z [4; -1]%Z [ex_line 3; ex_line 3] = Ok rows /\
  nth_error rows 0 = Some row /\ w_mass row = 0 /\ nth_error rows 1 = Some zero_row.
Proof.
  destruct (stats_rows_total ex_eigen ex_ratios (mkStatsConf 3 true true (-1)) 2 ex_draw ex_arrive (fun l => l) ex_read [1; 2]%Z [4; -1]%Z [ex_line 3; ex_line 3]) as [rows E]; auto using ex_arrive_ok; try (intros; eexists; reflexivity).
  - intros c r cs Hin. exists 1%nat. split; [lia|]. destruct Hin as [[= <- <- <-]|[[= <- <- <-]|[]]]; reflexivity.
  - intros s _. exists ex_file, []. split; [reflexivity|]. intros g [<-|[]]. split; reflexivity.
  - destruct (C182_skip_mass ex_eigen ex_ratios (mkStatsConf 3 true true (-1)) 2 ex_draw ex_arrive (fun l => l) ex_read ltac:(lia) ex_arrive_ok (fun l => Permutation_refl l) [1; 2]%Z [4; -1]%Z [ex_line 3; ex_line 3] rows eq_refl eq_refl eq_refl E) as [L H].
    destruct rows as [|row [|row' [|? ?]]]; try discriminate. exists [row; row'], row. split; [exact E|]. split; [reflexivity|]. split; [apply (H 0%nat row eq_refl)|].
    destruct (stats_rows_at ex_eigen ex_ratios (mkStatsConf 3 true true (-1)) 2 ex_draw ex_arrive ltac:(lia) ex_arrive_ok (fun l => l) ex_read [1; 2]%Z [4; -1]%Z [ex_line 3; ex_line 3] [row; row'] (fun l => Permutation_refl l) eq_refl eq_refl E) as [_ K]. apply (K 1%nat (-1)%Z eq_refl). reflexivity.
Qed.
