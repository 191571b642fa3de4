(** * Proofs: connecting the maxima. *)
From Coq Require Import Lra Lia.
From Verif Require Import GoBase GoBaseFacts RealBase LoopBase LoopFacts InterpModel InterpSpec InterpProofs KdeModel KdeSpec MatProofs RockstarProofs RockstarProofs2 KdeSpec2 KdeProofs KdeProofs2 Props_Interp.
Import List ListNotations.
Local Open Scope R_scope.

Definition angles_ok (ths : list (list R)) (k : nat) : Prop := forall l, (l < k)%nat -> nth_error ths l = Some (level_angles l).

Lemma buf_min n : buf_of n = Nat.min 5 n.
Proof. unfold buf_of. destruct (Nat.ltb_spec n 5); lia. Qed.

Lemma get_conn_maxes_ok ths conn level : rows_ok conn -> (level < length conn)%nat -> angles_ok ths (length conn) ->
  exists radii, get_conn_maxes ths conn level = Some (radii, level_angles level) /\ length radii = (2 ^ level)%nat /\
    forall j, (j < 2 ^ level)%nat -> get_finest conn j level = Some (nth j radii 0).
Proof.
  intros Hr Hl Ha. unfold get_conn_maxes. unfold rd at 1. rewrite (Ha level Hl).
  destruct (rd conn level) as [row|] eqn:Er; [|apply nth_error_None in Er; lia]. pose proof (proj2 Hr _ _ Er) as Lr. rewrite Lr.
  set (g := fun j => match get_finest conn j level with Some v => v | None => 0 end).
  assert (Hg : forall j, (j < 2 ^ level)%nat -> get_finest conn j level = Some (g j)).
  { intros j Hj. unfold g. destruct (finest_ok conn Hr level j Hl Hj) as (v & ->). reflexivity. }
  rewrite (mapo_map _ g) by (intros j Hj; apply in_seq in Hj; apply Hg; lia).
  exists (map g (seq 0 (2 ^ level))). split; [reflexivity|]. split; [now rewrite map_length, seq_length|].
  intros j Hj. rewrite Hg by exact Hj. f_equal. symmetry. apply nth_error_nth. now apply map_seq_nth.
Qed.

Lemma get_rfunc_ok ths conn level : rows_ok conn -> (level < length conn)%nat -> angles_ok ths (length conn) ->
  exists sp f radii, get_rfunc ths conn level = Some sp /\ get_conn_maxes ths conn level = Some (radii, level_angles level) /\ length radii = (2 ^ level)%nat /\
    filtering_curve radii f /\ forall x, 0 <= x <= 2 * PI -> SplineEval sp x = Some (f x).
Proof.
  intros Hr Hl Ha. destruct (get_conn_maxes_ok ths conn level Hr Hl Ha) as (radii & E & L & _). unfold get_rfunc. rewrite E.
  rewrite (extend_ok level radii (level_angles level) L eq_refl).
  pose proof (pow2_pos level) as Hn. set (n := (2 ^ level)%nat) in *.
  assert (Hb : (1 <= buf_of n <= n)%nat) by (rewrite buf_min; lia).
  destruct (C16_spline (map (wrap_angle n (buf_of n)) (seq 0 (n + 2 * buf_of n))) (map (wrap_anchor radii (buf_of n)) (seq 0 (n + 2 * buf_of n)))) as (sp & f & f1 & f2 & Es & Hs & Hev & _).
  { rewrite map_length, seq_length. lia. } { now apply wrap_increasing. } { now rewrite !map_length. }
  exists sp, f, radii. split; [exact Es|]. split; [reflexivity|]. split; [exact L|]. split.
  - unfold filtering_curve. rewrite L. rewrite <- buf_min. exists f1, f2. exact Hs.
  - intros x Hx. apply Hev. now apply wrap_within.
Qed.

Lemma centre_range l j : (j < 2 ^ l)%nat -> 0 <= centre l j <= 2 * PI.
Proof.
  intros Hj. unfold centre. pose proof (pow2_INR l) as H2. pose proof PI_RGT_0. pose proof (pos_INR j).
  assert (INR j + 1 <= INR (2 ^ l)) by (rewrite <- S_INR; apply le_INR; lia). split.
  - apply le_div_of; [exact H2|]. nra.
  - apply div_le_of; [exact H2|]. nra.
Qed.

(** Rows beyond the level do not matter. *)
Lemma finest_app conn x level : (level < length conn)%nat -> forall rounds i idx, finest_loop rounds i (conn ++ x) idx level = finest_loop rounds i conn idx level.
Proof.
  intros Hl. induction rounds as [|r IH]; intros i idx; [reflexivity|]. cbn [finest_loop]. unfold rd. rewrite nth_error_app1 by lia.
  destruct (nth_error conn (level - i)) as [row|]; [|reflexivity]. destruct (nth_error row _) as [[v|]|]; try reflexivity. apply IH.
Qed.
Lemma get_conn_maxes_app ths conn x level : (level < length conn)%nat -> get_conn_maxes ths (conn ++ x) level = get_conn_maxes ths conn level.
Proof.
  intros Hl. unfold get_conn_maxes. destruct (rd ths level); [|reflexivity]. unfold rd. rewrite nth_error_app1 by exact Hl.
  destruct (nth_error conn level) as [row|]; [|reflexivity].
  replace (mapo (fun i => get_finest (conn ++ x) i level) (seq 0 (List.length row))) with (mapo (fun i => get_finest conn i level) (seq 0 (List.length row))); [reflexivity|].
  generalize (seq 0 (List.length row)) as is. induction is as [|i is IH]; [reflexivity|]. cbn [mapo]. replace (get_finest (conn ++ x) i level) with (get_finest conn i level) by (unfold get_finest; symmetry; now apply finest_app). now rewrite IH.
Qed.
Lemma get_rfunc_app ths conn x level : (level < length conn)%nat -> get_rfunc ths (conn ++ x) level = get_rfunc ths conn level.
Proof. intros Hl. unfold get_rfunc. now rewrite get_conn_maxes_app. Qed.

(** ** The closest maximum *)
Lemma closest_max_ok p maxes : maxes <> [] -> exists m, closest_max p maxes = Some m /\ nearest p maxes m.
Proof.
  intros Hne. unfold closest_max.
  match goal with |- context [loop _ ?b ?s] => set (body := b); set (s0 := s) end.
  destruct (loop_inv (fun k st => match st with None => k = O | Some (i, d) => (i < k)%nat /\ d = Rabs (p - nth i maxes 0) /\ forall j, (j < k)%nat -> d <= Rabs (p - nth j maxes 0) end)
     (length maxes) body s0) as (st & E & H).
  - reflexivity.
  - intros k st Hk H. unfold body. rewrite (rd_nth maxes k 0) by exact Hk. destruct st as [[i d]|].
    + destruct H as (Hi & Hd & Hmin). destruct (Rltb (Rabs (p - nth k maxes 0)) d) eqn:El.
      * apply Rltb_true in El. eexists. split; [reflexivity|]. cbv beta iota. split; [lia|]. split; [reflexivity|]. intros j Hj.
        destruct (Nat.eq_dec j k) as [->|]; [lra|]. specialize (Hmin j ltac:(lia)). lra.
      * apply Rltb_false in El. eexists. split; [reflexivity|]. cbv beta iota. split; [lia|]. split; [exact Hd|]. intros j Hj.
        destruct (Nat.eq_dec j k) as [->|]; [lra|]. apply Hmin. lia.
    + subst k. eexists. split; [reflexivity|]. cbv beta iota. split; [lia|]. split; [reflexivity|]. intros j Hj. replace j with O by lia. lra.
  - rewrite E. destruct st as [[i d]|].
    + destruct H as (Hi & -> & Hmin). rewrite (rd_nth maxes i 0) by exact Hi. eexists. split; [reflexivity|]. split; [now apply nth_In|].
      intros w Hw. apply (In_nth _ _ 0) in Hw. destruct Hw as (j & Hj & <-). specialize (Hmin j Hj).
      now rewrite (Rabs_minus_sym (nth i maxes 0)), (Rabs_minus_sym (nth j maxes 0)).
    + destruct maxes; [easy|discriminate].
Qed.

(** ** One node *)
Definition entry_of (conn : list (list (option R))) (l j : nat) : option (option R) := match nth_error conn l with Some row => nth_error row j | None => None end.

(** What may be at node j of level l, given the finished levels and the maxima of the node. *)
Definition node_ok (ths : list (list R)) (conn : list (list (option R))) (h : R) (l j : nat) (ms : list R) (e : option R) : Prop :=
  match e with
  | Some v => In v ms /\
      ((exists p, entry_of conn (l - 1) (j / 2) = Some (Some p) /\ nearest p ms v /\ (l = 1%nat \/ Rabs (v - p) < h)) \/
       (exists sp s, get_rfunc ths conn (l - 1) = Some sp /\ SplineEval sp (centre l j) = Some s /\ Rabs (v - s) < h))
  | None =>
      (forall p w, entry_of conn (l - 1) (j / 2) = Some (Some p) -> In w ms -> l <> 1%nat /\ h <= Rabs (w - p)) /\
      (forall w, In w ms -> exists sp s, get_rfunc ths conn (l - 1) = Some sp /\ SplineEval sp (centre l j) = Some s /\ h <= Rabs (w - s))
  end.

Lemma connect_node_ok ths conn h split prev maxes node curr :
  rows_ok conn -> length conn = S split -> angles_ok ths (S (S split)) -> nth_error conn split = Some prev ->
  (node < 2 ^ S split)%nat -> length maxes = (2 ^ S split)%nat -> length curr = (2 ^ S split)%nat -> nth node curr None = None ->
  exists curr', connect_node ths conn h split prev maxes node curr = Some curr' /\ length curr' = length curr /\
    (forall j, j <> node -> nth j curr' None = nth j curr None) /\ node_ok ths conn h (S split) node (nth node maxes []) (nth node curr' None).
Proof.
  intros Hr Hlen Ha Hprev Hnode Lm Lc Hnone. unfold connect_node. rewrite (rd_nth maxes node []) by lia. set (ms := nth node maxes []). clearbody ms.
  pose proof (proj2 Hr _ _ Hprev) as Lp. pose proof (half_lt node split Hnode) as Hhalf.
  rewrite (rd_nth prev (node / 2) None) by lia.
  assert (Hentry : entry_of conn split (node / 2) = Some (nth (node / 2) prev None)).
  { unfold entry_of. rewrite Hprev. now apply nth_error_nth'; rewrite Lp. }
  destruct (get_rfunc_ok ths conn split Hr ltac:(lia) ltac:(intros l Hl; apply Ha; lia)) as (sp & f & radii & Esp & _ & _ & _ & Hev).
  pose proof (centre_range (S split) node Hnode) as Hth. specialize (Hev _ Hth).
  (* the fallback loop *)
  set (fb := loop (List.length ms) _ curr).
  assert (Hfb : exists curr', fb = Some curr' /\ length curr' = length curr /\ (forall j, j <> node -> nth j curr' None = nth j curr None) /\
     match nth node curr' None with Some v => In v ms /\ Rabs (v - f (centre (S split) node)) < h | None => forall w, In w ms -> h <= Rabs (w - f (centre (S split) node)) end).
  { unfold fb. match goal with |- context [loop _ ?b curr] => set (body := b) end.
    destruct (loop_inv (fun k c => length c = length curr /\ (forall j, j <> node -> nth j c None = nth j curr None) /\
       match nth node c None with Some v => In v ms /\ Rabs (v - f (centre (S split) node)) < h | None => forall i, (i < k)%nat -> (i < length ms)%nat -> h <= Rabs (nth i ms 0 - f (centre (S split) node)) end)
       (length ms) body curr) as (c & E & Lc' & Hoth & Hat).
    - split; [reflexivity|]. split; [reflexivity|]. rewrite Hnone. intros; lia.
    - intros k c Hk (Lc' & Hoth & Hat). unfold body. rewrite (rd_nth ms k 0) by exact Hk. rewrite Esp.
      unfold rd at 1. rewrite (Ha (S split)) by lia. unfold level_angles. unfold rd at 1. rewrite map_seq_nth by exact Hnode. rewrite Hev.
      destruct (Rltb (Rabs (nth k ms 0 - f (centre (S split) node))) h) eqn:El.
      + apply Rltb_true in El. destruct (wr_some c node (Some (nth k ms 0)) None) as (c' & E & L' & Hn); [lia|]. exists c'. split; [exact E|]. split; [lia|]. split.
        * intros j Hj. rewrite Hn. destruct (Nat.eqb_spec j node); [easy|]. now apply Hoth.
        * rewrite Hn, Nat.eqb_refl. split; [now apply nth_In|exact El].
      + apply Rltb_false in El. exists c. split; [reflexivity|]. split; [exact Lc'|]. split; [exact Hoth|].
        destruct (nth node c None); [exact Hat|]. intros i Hi Hi'. destruct (Nat.eq_dec i k) as [->|]; [exact El|]. apply Hat; lia.
    - exists c. split; [exact E|]. split; [exact Lc'|]. split; [exact Hoth|]. destruct (nth node c None); [exact Hat|].
      intros w Hw. apply (In_nth _ _ 0) in Hw. destruct Hw as (i & Hi & <-). now apply Hat. }
  destruct Hfb as (c1 & Efb & L1 & Ho1 & Hat1).
  assert (Hfall : (forall p w, entry_of conn split (node / 2) = Some (Some p) -> In w ms -> S split <> 1%nat /\ h <= Rabs (w - p)) ->
     node_ok ths conn h (S split) node ms (nth node c1 None)).
  { intros Hno. unfold node_ok. replace (S split - 1)%nat with split by lia. destruct (nth node c1 None) as [v|].
    - destruct Hat1 as [Hin Hd]. split; [exact Hin|]. right. exists sp, (f (centre (S split) node)). auto.
    - split; [exact Hno|]. intros w Hw. exists sp, (f (centre (S split) node)). auto. }
  destruct (nth (node / 2) prev None) as [p|] eqn:Ep.
  2: { rewrite Efb. exists c1. split; [reflexivity|]. split; [exact L1|]. split; [exact Ho1|]. apply Hfall. intros p w H. congruence. }
  destruct ms as [|m0 ms0].
  { rewrite Efb. exists c1. split; [reflexivity|]. split; [exact L1|]. split; [exact Ho1|]. apply Hfall. intros ? ? _ []. }
  destruct (closest_max_ok p (m0 :: ms0)) as (m & Em & Hm); [congruence|]. rewrite Em. set (ms := m0 :: ms0) in *. clearbody ms.
  destruct ((split =? 0)%nat || Rltb (Rabs (m - p)) h) eqn:Et.
  - destruct (wr_some curr node (Some m) None) as (c' & E & L' & Hn); [lia|]. exists c'. split; [exact E|]. split; [exact L'|]. split.
    + intros j Hj. rewrite Hn. destruct (Nat.eqb_spec j node); [easy|reflexivity].
    + rewrite Hn, Nat.eqb_refl. unfold node_ok. split; [apply Hm|]. left. exists p. replace (S split - 1)%nat with split by lia. split; [exact Hentry|]. split; [exact Hm|].
      apply orb_true_iff in Et. destruct Et as [Et|Et]; [left; apply Nat.eqb_eq in Et; lia|right; now apply Rltb_true].
  - apply orb_false_iff in Et. destruct Et as [Et1 Et2]. apply Nat.eqb_neq in Et1. apply Rltb_false in Et2.
    rewrite Efb. exists c1. split; [reflexivity|]. split; [exact L1|]. split; [exact Ho1|]. apply Hfall. intros p' w Hp' Hw.
    assert (p' = p) by congruence. subst p'. split; [lia|]. destruct Hm as [_ Hm]. specialize (Hm w Hw). lra.
Qed.

Lemma entry_app conn x l j : (l < length conn)%nat -> entry_of (conn ++ x) l j = entry_of conn l j.
Proof. intros Hl. unfold entry_of. now rewrite nth_error_app1. Qed.
Lemma node_ok_app ths conn x h l j ms e : (1 <= l <= length conn)%nat -> node_ok ths conn h l j ms e -> node_ok ths (conn ++ x) h l j ms e.
Proof. intros Hl. unfold node_ok. rewrite entry_app, get_rfunc_app by lia. tauto. Qed.

(** ** All levels *)
Lemma connect_maxes_ok ths maxesTree h m0 rest :
  (1 <= length maxesTree)%nat -> (forall l lev, nth_error maxesTree l = Some lev -> length lev = (2 ^ l)%nat) -> nth_error maxesTree 0 = Some [m0 :: rest] ->
  angles_ok ths (length maxesTree) ->
  exists conn, connect_maxes ths maxesTree h = Some conn /\ length conn = length maxesTree /\ rows_ok conn /\ nth_error conn 0 = Some [Some m0] /\
    forall l j, (1 <= l < length maxesTree)%nat -> (j < 2 ^ l)%nat -> exists e, entry_of conn l j = Some e /\ node_ok ths conn h l j (nth j (nth l maxesTree []) []) e.
Proof.
  intros Hlen Hlev H0 Ha. unfold connect_maxes. unfold rd at 1. rewrite H0. unfold rd at 1. cbn [nth_error]. unfold rd at 1. cbn [nth_error].
  match goal with |- context [loop _ ?b ?s] => set (body := b); set (s0 := s) end.
  assert (Ltl : length (tl maxesTree) = (length maxesTree - 1)%nat) by (destruct maxesTree; cbn; lia).
  destruct (loop_inv (fun k conn => length conn = S k /\ rows_ok conn /\ nth_error conn 0 = Some [Some m0] /\
     forall l j, (1 <= l <= k)%nat -> (j < 2 ^ l)%nat -> exists e, entry_of conn l j = Some e /\ node_ok ths conn h l j (nth j (nth l maxesTree []) []) e)
     (length (tl maxesTree)) body s0) as (conn & E & L & Hr & Hc0 & H).
  - split; [reflexivity|]. split.
    + split; [exists m0; reflexivity|]. intros [|l] row Hl; [injection Hl as <-; reflexivity|destruct l; discriminate].
    + split; [reflexivity|]. intros; lia.
  - intros k conn Hk (L & Hr & Hc0 & H). unfold body.
    assert (Htl : nth_error (tl maxesTree) k = nth_error maxesTree (S k)) by (destruct maxesTree; [destruct k|]; reflexivity).
    destruct (nth_error maxesTree (S k)) as [maxes|] eqn:Em; [|apply nth_error_None in Em; lia]. unfold rd at 1. rewrite Htl.
    pose proof (Hlev _ _ Em) as Lm. rewrite L. replace (S k - 1)%nat with k by lia.
    destruct (nth_error conn k) as [prev|] eqn:Ep; [|apply nth_error_None in Ep; lia]. unfold rd at 1. rewrite Ep.
    pose proof (proj2 Hr _ _ Ep) as Lp. rewrite Lp, Lm.
    destruct (loop_inv (fun j curr => length curr = (2 ^ S k)%nat /\ (forall i, (j <= i)%nat -> nth i curr None = None) /\
        forall i, (i < j)%nat -> node_ok ths conn h (S k) i (nth i maxes []) (nth i curr None)) (2 ^ S k) (connect_node ths conn h k prev maxes) (repeat None (2 * 2 ^ k)))
      as (curr & E & Lc & _ & Hc).
    + split; [rewrite repeat_length; reflexivity|]. split; [intros; apply nth_repeat|intros; lia].
    + intros j curr Hj (Lc & Hnone & Hdone).
      destruct (connect_node_ok ths conn h k prev maxes j curr Hr L ltac:(intros l Hl; apply Ha; lia) Ep Hj Lm Lc (Hnone j (le_n j))) as (c' & E & Lc' & Ho & Hok).
      exists c'. split; [exact E|]. split; [lia|]. split; [intros i Hi; rewrite Ho by lia; apply Hnone; lia|].
      intros i Hi. destruct (Nat.eq_dec i j) as [->|]; [exact Hok|]. rewrite Ho by assumption. apply Hdone. lia.
    + rewrite E. exists (conn ++ [curr]). split; [reflexivity|]. split; [rewrite app_length; cbn; lia|]. split; [|split].
      * split; [destruct (proj1 Hr) as (m & Hm); exists m; rewrite nth_error_app1 by lia; exact Hm|].
        intros l row Hl. destruct (Nat.lt_ge_cases l (length conn)) as [Hlt|Hge].
        -- rewrite nth_error_app1 in Hl by exact Hlt. now apply (proj2 Hr).
        -- rewrite nth_error_app2 in Hl by exact Hge. destruct (l - length conn)%nat as [|q] eqn:Eq; [|destruct q; discriminate]. injection Hl as <-.
           replace l with (S k) by lia. exact Lc.
      * rewrite nth_error_app1 by lia. exact Hc0.
      * intros l j Hl Hj. destruct (Nat.eq_dec l (S k)) as [->|Hne].
        -- exists (nth j curr None). split.
           ++ unfold entry_of. rewrite nth_error_app2 by lia. rewrite L, Nat.sub_diag. cbn [nth_error]. apply nth_error_nth'. lia.
           ++ rewrite (nth_error_nth _ _ [] Em). apply node_ok_app; [lia|]. apply Hc. exact Hj.
        -- destruct (H l j ltac:(lia) Hj) as (e & He & Hok). exists e. split; [rewrite entry_app by lia; exact He|]. apply node_ok_app; [lia|exact Hok].
  - rewrite E. exists conn. split; [reflexivity|]. split; [lia|]. split; [exact Hr|]. split; [exact Hc0|]. intros l j Hl Hj. apply H; [lia|exact Hj].
Qed.

Lemma connect_maxes_none ths maxesTree h : nth_error maxesTree 0 = Some [[]] -> connect_maxes ths maxesTree h = None.
Proof. intros H. unfold connect_maxes. unfold rd at 1. rewrite H. reflexivity. Qed.
