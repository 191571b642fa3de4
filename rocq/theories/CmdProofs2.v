(** * Proofs about the coord command, the tree filter and the small helpers. *)
From Coq Require Import Reals Lra Permutation Sorted.
From Verif Require Import GoBase GoBaseFacts ListFacts LoopBase LoopFacts CmdModel CmdProofs.
Import List ListNotations.
Local Open Scope nat_scope.

(** ** coord *)
Section Coord.
Variables posUnits radUnits : bytes.
Variable names : list bytes.
Variable nm : bytes.

Definition facrel (c : cosmology) (name : bytes) (f : R) : Prop :=
  match col_unit posUnits radUnits name with None => f = 1%R | Some u => UnitConversionFactor u c = Some f end.

Lemma scale_cols_ok c : forall ns cols scaled, scale_cols posUnits radUnits c ns cols = Some scaled ->
  length scaled = length ns /\
  forall j, j < length ns -> exists f, facrel c (nth j ns nm) f /\
    length (nth j scaled []) = length (nth j cols []) /\
    forall t, t < length (nth j cols []) -> nth t (nth j scaled []) 0%R = (nth t (nth j cols []) 0 * f)%R.
Proof.
  induction ns as [|n ns IH]; intros cols scaled E.
  - cbn in E. injection E as <-. split; [reflexivity|]. cbn. intros; lia.
  - destruct cols as [|col cs]; cbn in E; [discriminate|].
    destruct (scale_col posUnits radUnits c n col) as [x|] eqn:Ex; [|discriminate].
    destruct (scale_cols posUnits radUnits c ns cs) as [r|] eqn:Er; [|discriminate]. injection E as <-.
    destruct (IH _ _ Er) as [L H]. split; [cbn; lia|].
    intros [|j] Hj; [|cbn; apply H; cbn in Hj; lia]. cbn [nth].
    unfold scale_col in Ex. unfold facrel. destruct (col_unit posUnits radUnits n) as [u|].
    + destruct (UnitConversionFactor u c) as [f|]; [|discriminate]. injection Ex as <-.
      exists f. split; [reflexivity|]. split; [apply map_length|].
      intros t Ht. rewrite (nth_indep _ 0%R (0 * f)%R) by (now rewrite map_length).
      now rewrite (map_nth (fun x => (x * f)%R)).
    + injection Ex as <-. exists 1%R. split; [reflexivity|]. split; [reflexivity|]. intros; lra.
Qed.

Lemma scatter_cols_ok idxs n : NoDup idxs -> (forall i, In i idxs -> i < n) -> forall cols scols cols',
  (forall j, j < length cols -> length (nth j cols []) = n) ->
  scatter_cols cols idxs scols = Some cols' ->
  length cols' = length cols /\
  forall j, j < length cols ->
    length idxs <= length (nth j scols []) /\
    length (nth j cols' []) = n /\
    (forall i, ~ In i idxs -> nth i (nth j cols' []) 0%R = nth i (nth j cols []) 0%R) /\
    (forall k, k < length idxs -> nth (nth k idxs 0) (nth j cols' []) 0%R = nth k (nth j scols []) 0%R).
Proof.
  intros N Hin. induction cols as [|c cs IH]; intros scols cols' Hl E.
  - cbn in E. injection E as <-. split; [reflexivity|]. cbn. intros; lia.
  - destruct scols as [|s ss]; cbn in E; [discriminate|].
    destruct (scatter c idxs s) as [c'|] eqn:Ec; [|discriminate].
    destruct (scatter_cols cs idxs ss) as [r|] eqn:Er; [|discriminate]. injection E as <-.
    destruct (IH ss r) as [L H]; [intros j Hj; apply (Hl (S j)); cbn; lia|exact Er|].
    split; [cbn; lia|]. intros [|j] Hj; [|cbn; apply H; cbn in Hj; lia]. cbn [nth].
    pose proof (scatter_short _ _ _ _ Ec) as Hs.
    assert (length c = n) as Lc by (apply (Hl 0); cbn; lia).
    destruct (scatter_spec 0%R idxs c s N) as (o & Eo & Lo & A & B); [intros; rewrite Lc; now apply Hin|exact Hs|].
    rewrite Ec in Eo. injection Eo as ->. repeat split; auto. lia.
Qed.

Variable readHd : Z -> res cosmology.
Variable readVals : Z -> list Z -> res (list (list R)).
Variable value : Z -> Z -> nat -> R.
Hypothesis vals_ok : forall s l cols, readVals s l = Ok cols ->
  forall j, j < length names -> length (nth j cols []) = length l /\
    forall t, t < length l -> nth t (nth j cols []) 0%R = value s (nth t l 0%Z) j.
Variables snaps ids : list Z.
Variables (sb : gmap Z) (ib : gmap nat).
Hypothesis len_ids : length ids = length snaps.
Hypothesis sb_ok : keyed snaps (length snaps) (fun i => nth i ids 0%Z) sb.
Hypothesis ib_ok : keyed snaps (length snaps) (fun i => i) ib.

Definition cells (s0 : Z) (done : list Z) (cols : list (list R)) : Prop :=
  length cols = length names /\
  (forall j, j < length names -> length (nth j cols []) = length snaps) /\
  forall i j, i < length snaps -> j < length names ->
    let s := nth i snaps 0%Z in
    (In s done /\ s <> (-1)%Z -> exists c f, readHd s0 = Ok c /\ facrel c (nth j names nm) f /\
        nth i (nth j cols []) 0%R = (value s (nth i ids 0%Z) j * f)%R) /\
    (~ In s done \/ s = (-1)%Z -> nth i (nth j cols []) 0%R = 0%R).

Lemma coord_loop_ok s0 ks : forall done cols cols',
  NoDup (done ++ ks) -> cells s0 done cols ->
  coord_loop readHd readVals posUnits radUnits names s0 sb ib ks cols = Ok cols' -> cells s0 (done ++ ks) cols'.
Proof.
  induction ks as [|s ks IH]; intros done cols cols' N W E.
  - cbn in E. injection E as <-. now rewrite app_nil_r.
  - assert (Hns : ~ In s done).
    { intros I. apply NoDup_remove_2 in N. apply N. apply in_or_app. now left. }
    replace (done ++ s :: ks) with ((done ++ [s]) ++ ks) in * by (now rewrite <- app_assoc).
    cbn [coord_loop] in E. destruct (Z.eqb_spec s (-1)) as [->|Hs].
    + apply (IH (done ++ [(-1)%Z])) with (cols := cols) in E; [exact E|exact N|].
      destruct W as (L & L2 & W). split; [exact L|]. split; [exact L2|].
      intros i j Hi Hj. destruct (W i j Hi Hj) as [W1 W2]. cbn zeta. split.
      * intros [I1 I2]. apply W1. split; [|assumption]. apply in_app_or in I1. destruct I1 as [?|[?|[]]]; [assumption|congruence].
      * intros [I|I]; [|now apply W2; right]. apply W2. left. intros J. apply I. apply in_or_app. now left.
    + destruct (readHd s0) as [c| |] eqn:Ec; try discriminate.
      destruct (readVals s (mget sb s)) as [scols| |] eqn:Ev; try discriminate.
      destruct (scale_cols posUnits radUnits c names scols) as [scaled|] eqn:Es; try discriminate.
      destruct (scatter_cols cols (mget ib s) scaled) as [cols1|] eqn:Ex; try discriminate.
      destruct W as (L & L2 & W).
      assert (Eib : mget ib s = rows_of snaps (length snaps) s).
      { destruct ib_ok as (_ & _ & G). now rewrite G, map_id. }
      assert (Esb : mget sb s = map (fun i => nth i ids 0%Z) (rows_of snaps (length snaps) s)).
      { destruct sb_ok as (_ & _ & G). apply G. }
      rewrite Eib in Ex. rewrite Esb in Ev.
      destruct (scatter_cols_ok (rows_of snaps (length snaps) s) (length snaps)) with (cols := cols) (scols := scaled) (cols' := cols1)
        as [L1 H1]; [apply nodup_rows_of|intros i Hi; apply in_rows_of in Hi; tauto|now rewrite L|exact Ex|].
      destruct (scale_cols_ok _ _ _ _ Es) as [L3 H3].
      apply (IH (done ++ [s])) with (cols := cols1) in E; [exact E|exact N|].
      split; [lia|]. split; [intros j Hj; apply H1; lia|].
      intros i j Hi Hj. cbn zeta. destruct (W i j Hi Hj) as [W1 W2].
      destruct (H1 j) as (Ha & Hb & Hc & Hd); [lia|].
      split.
      * intros [I1 I2]. destruct (Z.eq_dec (nth i snaps 0%Z) s) as [Eqs|Nes].
        -- assert (In i (rows_of snaps (length snaps) s)) as Ir by (now apply in_rows_of).
           apply (In_nth _ _ 0) in Ir. destruct Ir as (k & Hk & Ek).
           destruct (H3 j Hj) as (f & Hf & Lf & Vf).
           destruct (vals_ok _ _ _ Ev j Hj) as [Lv Vv]. rewrite map_length in Lv, Vv.
           exists c, f. split; [exact Ec|]. split; [exact Hf|].
           specialize (Hd k Hk). rewrite Ek in Hd. rewrite Hd, Vf by lia. rewrite Vv by assumption. rewrite Eqs. f_equal.
           f_equal. rewrite (nth_indep _ 0%Z (nth O ids 0%Z)) by (now rewrite map_length).
           rewrite (map_nth (fun i => nth i ids 0%Z)). now rewrite Ek.
        -- rewrite Hc. 2:{ rewrite in_rows_of. tauto. }
           apply W1. split; [|assumption]. apply in_app_or in I1. destruct I1 as [?|[?|[]]]; [assumption|congruence].
      * intros I. rewrite Hc.
        -- apply W2. destruct I as [I|I]; [left|now right]. intros J. apply I. apply in_or_app. now left.
        -- rewrite in_rows_of. intros [_ J]. destruct I as [I|I]; [|congruence]. apply I. apply in_or_app. right. now left.
Qed.
End Coord.

(** ** transpose *)
Definition rect {A} (w : nat) (m : list (list A)) : Prop := Forall (fun r => length r = w) m.

Lemma transpose_ok {A} (z : A) (m : list (list A)) w : m <> [] -> rect w m ->
  exists t, transpose z m = Some t /\ length t = w /\ rect (length m) t /\
    forall x y, x < w -> y < length m -> nth y (nth x t []) z = nth x (nth y m []) z.
Proof.
  intros Hne Hr. unfold transpose. destruct m as [|r0 m0] eqn:Em; [congruence|].
  assert (length r0 = w) as L0 by (inversion Hr; assumption).
  rewrite <- Em in *. set (rows := length m) in *. rewrite L0.
  assert (Hrow : forall y, y < rows -> length (nth y m []) = w).
  { intros y Hy. unfold rect in Hr. rewrite Forall_forall in Hr. apply Hr. now apply nth_In. }
  set (P := fun (k : nat) (t : list (list A)) => length t = w /\ rect rows t /\
     forall x y, x < w -> y < k -> nth y (nth x t []) z = nth x (nth y m []) z).
  destruct (loop_inv P rows (fun y out =>
        loop w (fun x out =>
          do row <- rd m y;
          do v <- rd row x;
          do col <- rd out x;
          do col' <- wr col y v;
          wr out x col') out) (repeat (repeat z rows) w)) as (t & E & H).
  - split; [apply repeat_length|]. split; [|intros; lia].
    apply Forall_forall. intros r Hi. apply repeat_spec in Hi. subst. apply repeat_length.
  - intros y t Hy (Lt & Rt & Vt).
    set (Q := fun (k : nat) (t : list (list A)) => length t = w /\ rect rows t /\
      (forall x y', x < w -> y' < y -> nth y' (nth x t []) z = nth x (nth y' m []) z) /\
      (forall x, x < k -> nth y (nth x t []) z = nth x (nth y m []) z)).
    destruct (loop_inv Q w (fun x out =>
          do row <- rd m y;
          do v <- rd row x;
          do col <- rd out x;
          do col' <- wr col y v;
          wr out x col') t) as (t' & E & Lt' & Rt' & Vt' & Wt').
    + repeat split; auto. intros; lia.
    + intros x u Hx (Lu & Ru & Vu & Wu).
      rewrite (rd_nth m y []) by assumption. rewrite (rd_nth (nth y m []) x z) by (rewrite Hrow; assumption).
      rewrite (rd_nth u x []) by lia.
      assert (length (nth x u []) = rows) as Lc.
      { unfold rect in Ru. rewrite Forall_forall in Ru. apply Ru, nth_In. lia. }
      destruct (wr_some (nth x u []) y (nth x (nth y m []) z) z) as (c' & Ec & Lc' & Nc); [lia|]. rewrite Ec.
      destruct (wr_some u x c' []) as (u' & Eu & Lu' & Nu); [lia|].
      exists u'. split; [exact Eu|]. split; [lia|]. split; [|split].
      * unfold rect in *. rewrite Forall_forall in *. intros r Hin. apply (In_nth _ _ []) in Hin. destruct Hin as (q & Hq & <-).
        rewrite Nu. destruct (q =? x); [lia|]. apply Ru. apply nth_In. lia.
      * intros x' y' Hx' Hy'. rewrite Nu. destruct (Nat.eqb_spec x' x) as [->|]; [|now apply Vu].
        rewrite Nc. destruct (Nat.eqb_spec y' y); [lia|]. now apply Vu.
      * intros x' Hx'. rewrite Nu. destruct (Nat.eqb_spec x' x) as [->|].
        -- now rewrite Nc, Nat.eqb_refl.
        -- apply Wu. lia.
    + exists t'. split; [exact E|]. split; [assumption|]. split; [assumption|].
      intros x y' Hx Hy'. destruct (Nat.eq_dec y' y) as [->|]; [now apply Wt'|]. apply Vt'; [assumption|lia].
  - exists t. destruct H as (? & ? & ?). auto.
Qed.

(** ** tree output *)
Lemma tree_lines_filter lo hi select rows : select = [] ->
  tree_lines lo hi select rows = filter (fun r => (lo <=? snd r)%Z && (snd r <=? hi)%Z) rows.
Proof.
  intros ->. induction rows as [|[id s] rows IH]; [reflexivity|]. cbn. rewrite IH.
  now destruct ((lo <=? s)%Z && (s <=? hi)%Z).
Qed.

Lemma nodup_pick (select : list Z) s (r : Z * Z) : NoDup select ->
  flat_map (fun x => if (x =? s)%Z then [r] else []) select = if existsb (Z.eqb s) select then [r] else [].
Proof.
  induction select as [|x l IH]; intros N; [reflexivity|]. inversion N as [|a b Hni Hn]; subst. cbn.
  rewrite IH by assumption. destruct (Z.eqb_spec x s) as [->|].
  - rewrite Z.eqb_refl. cbn. destruct (existsb (Z.eqb s) l) eqn:E; [|reflexivity].
    apply existsb_exists in E. destruct E as (y & Hy & Ey). apply Z.eqb_eq in Ey. subst. contradiction.
  - destruct (Z.eqb_spec s x); [congruence|]. reflexivity.
Qed.

Lemma tree_lines_select lo hi select rows : select <> [] -> NoDup select ->
  tree_lines lo hi select rows =
  filter (fun r => (lo <=? snd r)%Z && (snd r <=? hi)%Z && existsb (Z.eqb (snd r)) select) rows.
Proof.
  intros Hne N. induction rows as [|[id s] rows IH]; [reflexivity|]. cbn [tree_lines filter snd]. rewrite IH.
  destruct ((lo <=? s)%Z && (s <=? hi)%Z); cbn [andb app]; [|reflexivity].
  destruct select as [|x l] eqn:Es; [congruence|]. rewrite <- Es in *. rewrite nodup_pick by assumption.
  now destruct (existsb (Z.eqb s) select).
Qed.

Lemma filter_concat {A} (f : A -> bool) ls : filter f (concat ls) = concat (map (filter f) ls).
Proof. induction ls as [|l ls IH]; [reflexivity|]. cbn. now rewrite filter_app, IH. Qed.

Lemma filter_join_sets (f : Z * Z -> bool) sets : f (-1, -1)%Z = false -> filter f (join_sets sets) = filter f (concat sets).
Proof.
  intros Hf. induction sets as [|s rest IH]; [reflexivity|]. cbn [join_sets concat].
  destruct rest as [|s2 r2]; [now rewrite app_nil_r|].
  rewrite !filter_app, IH. cbn [filter]. now rewrite Hf.
Qed.
