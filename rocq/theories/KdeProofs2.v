(** * Proofs: angular bins, local maxima, periodic extension, the finest anchor. *)
From Coq Require Import Lra Lia.
From Verif Require Import GoBase GoBaseFacts RealBase LoopBase LoopFacts InterpModel InterpSpec InterpProofs KdeModel KdeSpec MatProofs RockstarProofs RockstarProofs2 KdeProofs Props_Interp.
Import List ListNotations.
Local Open Scope R_scope.

Lemma firstn_snoc {A} (l : list A) k d : (k < length l)%nat -> firstn (S k) l = firstn k l ++ [nth k l d].
Proof. revert k. induction l as [|x l IH]; intros [|k] Hk; cbn [length firstn nth app] in *; try lia; [reflexivity|]. f_equal. apply IH. lia. Qed.

Lemma sector_snoc_in P rs phis out r phi : sector_points P rs phis out -> P phi -> sector_points P (rs ++ [r]) (phis ++ [phi]) (out ++ [r]).
Proof. intros H HP. induction H; cbn [app]; [apply sp_in; [exact HP|constructor]|apply sp_in; auto|apply sp_out; auto]. Qed.
Lemma sector_snoc_out P rs phis out r phi : sector_points P rs phis out -> ~ P phi -> sector_points P (rs ++ [r]) (phis ++ [phi]) out.
Proof. intros H HP. induction H; cbn [app]; [apply sp_out; [exact HP|constructor]|apply sp_in; auto|apply sp_out; auto]. Qed.

Lemma pow2_pos l : (1 <= 2 ^ l)%nat.
Proof. pose proof (Nat.pow_nonzero 2 l). lia. Qed.
Lemma pow2_INR l : 0 < INR (2 ^ l).
Proof. apply lt_0_INR. pose proof (pow2_pos l). lia. Qed.

Lemma in_sector_trunc l j phi : 0 <= phi -> in_sector l j phi <-> Rtrunc (phi / (2 * PI / INR (2 ^ l))) = Z.of_nat j.
Proof.
  intros Hp. pose proof PI_RGT_0 as Hpi. pose proof (pow2_INR l) as H2.
  set (d := 2 * PI / INR (2 ^ l)). assert (Hd : 0 < d) by (apply Rdiv_lt_0_compat; lra).
  assert (Hq : 0 <= phi / d) by (apply le_div_of; lra). destruct (Rtrunc_pos _ Hq) as [Ht0 [Ht1 Ht2]].
  unfold in_sector. replace (2 * PI * INR j / INR (2 ^ l)) with (INR j * d) by (unfold d; field; lra).
  replace (2 * PI * INR (S j) / INR (2 ^ l)) with (INR (S j) * d) by (unfold d; field; lra).
  rewrite S_INR. set (t := Rtrunc (phi / d)) in *.
  assert (E : phi = phi / d * d) by (field; lra). split.
  - intros [H1 H3]. assert (A1 : INR j <= phi / d) by (apply le_div_of; assumption). assert (A2 : phi / d < INR j + 1) by (apply div_lt_of; assumption).
    rewrite INR_IZR_INZ in A1, A2. assert (B1 : IZR t < IZR (Z.of_nat j + 1)) by (rewrite plus_IZR; lra). assert (B2 : IZR (Z.of_nat j) < IZR (t + 1)) by (rewrite plus_IZR; lra).
    apply lt_IZR in B1, B2. lia.
  - intros Et. rewrite Et, <- INR_IZR_INZ in Ht1, Ht2. rewrite E. split; [apply Rmult_le_compat_r; lra|apply Rmult_lt_compat_r; lra].
Qed.

Lemma trunc_sector_range l phi : 0 <= phi < 2 * PI -> (0 <= Rtrunc (phi / (2 * PI / INR (2 ^ l))) < Z.of_nat (2 ^ l))%Z.
Proof.
  intros [Hp Hlt]. pose proof PI_RGT_0 as Hpi. pose proof (pow2_INR l) as H2.
  set (d := 2 * PI / INR (2 ^ l)). assert (Hd : 0 < d) by (apply Rdiv_lt_0_compat; lra).
  assert (Hq : 0 <= phi / d) by (apply le_div_of; lra). destruct (Rtrunc_pos _ Hq) as [Ht0 [Ht1 Ht2]].
  assert (phi / d < INR (2 ^ l)). { apply div_lt_of; [exact Hd|]. replace (INR (2 ^ l) * d) with (2 * PI) by (unfold d; field; lra). exact Hlt. }
  split; [exact Ht0|]. apply lt_IZR. rewrite <- INR_IZR_INZ. lra.
Qed.

Lemma bin_by_theta_ok rs phis l : length phis = length rs -> (forall p, In p phis -> 0 <= p < 2 * PI) ->
  exists rBins, bin_by_theta rs phis (2 ^ l) = Some (rBins, map (centre l) (seq 0 (2 ^ l))) /\ length rBins = (2 ^ l)%nat /\
    forall j, (j < 2 ^ l)%nat -> sector_points (in_sector l j) rs phis (nth j rBins []).
Proof.
  intros HL Hr. unfold bin_by_theta. cbv zeta.
  match goal with |- context [loop _ ?b ?s] => set (body := b); set (s0 := s) end.
  destruct (loop_inv (fun k rb => length rb = (2 ^ l)%nat /\ forall j, (j < 2 ^ l)%nat -> sector_points (in_sector l j) (firstn k rs) (firstn k phis) (nth j rb []))
     (length rs) body s0) as (rb & E & L & H).
  - split; [apply repeat_length|]. intros j Hj. unfold s0. rewrite nth_repeat. constructor.
  - intros k t Hk (L & H). unfold body. rewrite (rd_nth phis k 0), (rd_nth rs k 0) by lia.
    set (phi := nth k phis 0). assert (Hphi : 0 <= phi < 2 * PI) by (apply Hr; apply nth_In; lia).
    pose proof (trunc_sector_range l phi Hphi) as Hrange. set (idx := Rtrunc (phi / (2 * PI / INR (2 ^ l)))) in *.
    rewrite at_toNat by lia. rewrite (nth_error_nth' t []) by lia.
    destruct (wr_some t (Z.to_nat idx) (nth (Z.to_nat idx) t [] ++ [nth k rs 0]) []) as (t' & E & L' & Hn); [lia|].
    exists t'. split; [exact E|]. split; [lia|]. intros j Hj. rewrite Hn, (firstn_snoc rs k 0), (firstn_snoc phis k 0) by lia. fold phi.
    destruct (Nat.eqb_spec j (Z.to_nat idx)) as [->|Hne].
    + apply sector_snoc_in; [apply H; lia|]. apply in_sector_trunc; [tauto|]. fold idx. lia.
    + apply sector_snoc_out; [apply H; lia|]. rewrite in_sector_trunc by tauto. fold idx. lia.
  - rewrite E. exists rb. split; [reflexivity|]. split; [exact L|]. intros j Hj. specialize (H j Hj).
    rewrite firstn_all in H. rewrite <- HL, firstn_all in H. exact H.
Qed.

(** ** Local maxima *)
Definition is_max (f : R -> R) (xs : list R) (i : nat) : bool := Rltb (f (nth (S i) xs 0)) (f (nth i xs 0)) && Rltb (f (nth (i - 1) xs 0)) (f (nth i xs 0)).

Lemma local_maxes_ok xs sp f : (3 <= length xs)%nat -> (forall x, In x xs -> SplineEval sp x = Some (f x)) ->
  local_spline_maxes xs sp = Some (map (fun i => nth i xs 0) (filter (is_max f xs) (seq 1 (length xs - 2)))).
Proof.
  intros Hn Hf. assert (Hev : forall i, (i < length xs)%nat -> SplineEval sp (nth i xs 0) = Some (f (nth i xs 0))) by (intros; apply Hf, nth_In; lia).
  unfold local_spline_maxes. rewrite (rd_nth xs 0 0), (rd_nth xs 1 0), (rd_nth xs 2 0) by lia. rewrite !Hev by lia. cbv zeta.
  match goal with |- context [loop_from 2 _ ?b ?s] => set (body := b); set (s0 := s) end.
  destruct (loop_from_inv (fun i st => st = (f (nth (i - 1) xs 0), f (nth i xs 0), map (fun i => nth i xs 0) (filter (is_max f xs) (seq 1 (i - 1)))))
     2 (length xs - 1) body s0) as (st & E & ->).
  - lia.
  - unfold s0. cbn [Nat.sub seq filter]. change (Rltb (f (nth 2 xs 0)) (f (nth 1 xs 0)) && Rltb (f (nth 0 xs 0)) (f (nth 1 xs 0))) with (is_max f xs 1). destruct (is_max f xs 1); reflexivity.
  - intros i t Hi ->. unfold body. rewrite (rd_nth xs (S i) 0) by lia. rewrite Hev by lia. rewrite (rd_nth xs i 0) by lia.
    eexists. split; [reflexivity|]. replace (S i - 1)%nat with i by lia. f_equal.
    assert (Es : seq 1 i = seq 1 (i - 1) ++ [i]) by (replace i with (S (i - 1)) at 1 by lia; rewrite seq_S; do 2 f_equal; lia).
    rewrite Es, filter_app, map_app.
    cbn [filter]. fold (is_max f xs i). destruct (is_max f xs i); cbn [map app]; [reflexivity|now rewrite app_nil_r].
  - rewrite E. cbn [snd]. replace (length xs - 1 - 1)%nat with (length xs - 2)%nat by lia. reflexivity.
Qed.

(** ** Periodic extension *)
Definition buf_of (n : nat) : nat := if (n <? 5)%nat then n else 5%nat.

Lemma extend_ok l maxes ths : length maxes = (2 ^ l)%nat -> ths = map (centre l) (seq 0 (2 ^ l)) ->
  let n := (2 ^ l)%nat in let buf := buf_of n in
  extend_angular maxes ths = Some (map (wrap_anchor maxes buf) (seq 0 (n + 2 * buf)), map (wrap_angle n buf) (seq 0 (n + 2 * buf))).
Proof.
  intros HL Hths n buf. unfold extend_angular. rewrite HL. fold n. fold (buf_of n). fold buf.
  assert (Hn : (1 <= n)%nat) by apply pow2_pos. assert (Hbuf : (1 <= buf <= n)%nat) by (unfold buf, buf_of; destruct (Nat.ltb_spec n 5); lia).
  assert (Hn0 : 0 < INR n) by (apply lt_0_INR; lia).
  assert (Ht : forall j, (j < n)%nat -> rd ths j = Some (centre l j)).
  { intros j Hj. unfold rd. rewrite Hths, nth_error_map. replace (nth_error (seq 0 (2 ^ l)) j) with (Some j); [reflexivity|].
    rewrite (nth_error_nth' _ O) by (rewrite seq_length; exact Hj). rewrite seq_nth by exact Hj. reflexivity. }
  assert (Hm : forall j, (j < n)%nat -> rd maxes j = Some (nth j maxes 0)) by (intros; apply rd_nth; lia).
  rewrite (mapo_map _ (fun j => (nth j maxes 0, centre l j - 2 * PI))) by (intros a Ha; apply in_seq in Ha; rewrite Hm, Ht by lia; reflexivity).
  rewrite (mapo_map _ (fun j => (nth j maxes 0, centre l j))) by (intros a Ha; apply in_seq in Ha; rewrite Hm, Ht by lia; reflexivity).
  rewrite (mapo_map _ (fun j => (nth j maxes 0, centre l j + 2 * PI))) by (intros a Ha; apply in_seq in Ha; rewrite Hm, Ht by lia; reflexivity).
  replace (n + 2 * buf)%nat with (buf + (n + buf))%nat by lia. rewrite !seq_app. cbn [Nat.add].
  assert (Hsh : forall {A} (g : nat -> A) s k, map g (seq s k) = map (fun i => g (s + i)%nat) (seq 0 k)).
  { intros A g s k. replace s with (s + 0)%nat at 1 by lia. generalize O as o. induction k as [|k IH]; intros o; [reflexivity|]. cbn [seq map]. f_equal. rewrite <- IH. now rewrite Nat.add_succ_r. }
  rewrite !map_app, !map_map. cbn [fst snd].
  assert (Hmod : forall a, (a < n)%nat -> (a mod n = a)%nat) by (intros; now apply Nat.mod_small).
  f_equal. f_equal; (f_equal; [|f_equal]).
  - rewrite (Hsh _ _ (n - buf)%nat). apply map_ext_in. intros i Hi. apply in_seq in Hi. unfold wrap_anchor. rewrite HL. fold n. rewrite Hmod by lia. f_equal. lia.
  - rewrite (Hsh _ _ buf). apply map_ext_in. intros i Hi. apply in_seq in Hi. unfold wrap_anchor. rewrite HL. fold n.
    replace (buf + i + (n - buf))%nat with (i + 1 * n)%nat by lia. rewrite Nat.mod_add, Hmod by lia. reflexivity.
  - rewrite (Hsh _ _ (buf + n)%nat). apply map_ext_in. intros i Hi. apply in_seq in Hi. unfold wrap_anchor. rewrite HL. fold n.
    replace (buf + n + i + (n - buf))%nat with (i + 2 * n)%nat by lia. rewrite Nat.mod_add, Hmod by lia. reflexivity.
  - rewrite (Hsh _ _ (n - buf)%nat). apply map_ext_in. intros i Hi. unfold wrap_angle, centre. fold n. rewrite plus_INR, minus_INR by lia. field. lra.
  - rewrite (Hsh _ _ buf). apply map_ext_in. intros i Hi. unfold wrap_angle, centre. fold n. rewrite plus_INR. field. lra.
  - rewrite (Hsh _ _ (buf + n)%nat). apply map_ext_in. intros i Hi. unfold wrap_angle, centre. fold n. rewrite !plus_INR. field. lra.
Qed.

Lemma wrap_angle_lt n buf i j : (1 <= n)%nat -> (i < j)%nat -> wrap_angle n buf i < wrap_angle n buf j.
Proof.
  intros Hn Hij. unfold wrap_angle. assert (0 < INR n) by (apply lt_0_INR; lia). pose proof PI_RGT_0. apply lt_INR in Hij.
  apply Rmult_lt_compat_r; [now apply Rinv_0_lt_compat|]. nra.
Qed.

Lemma map_seq_nth {A} (g : nat -> A) n i : (i < n)%nat -> nth_error (map g (seq 0 n)) i = Some (g i).
Proof.
  intros Hi. rewrite nth_error_map. rewrite (nth_error_nth' _ O) by (rewrite seq_length; exact Hi). rewrite seq_nth by exact Hi. reflexivity.
Qed.

Lemma wrap_increasing n buf k : (1 <= n)%nat -> InterpSpec.increasing (map (wrap_angle n buf) (seq 0 k)).
Proof.
  intros Hn i j a b Hij Ha Hb.
  assert (Hj : (j < k)%nat). { rewrite <- (seq_length k 0). rewrite <- (map_length (wrap_angle n buf)). apply nth_error_Some. congruence. }
  rewrite map_seq_nth in Ha, Hb by lia. injection Ha as <-. injection Hb as <-. now apply wrap_angle_lt.
Qed.

Lemma wrap_within n buf x : (1 <= buf <= n)%nat -> 0 <= x <= 2 * PI -> within (map (wrap_angle n buf) (seq 0 (n + 2 * buf))) x.
Proof.
  intros Hb Hx. exists (wrap_angle n buf 0), (wrap_angle n buf (n + 2 * buf - 1)).
  split; [apply map_seq_nth; lia|]. rewrite map_length, seq_length. split; [apply map_seq_nth; lia|].
  assert (0 < INR n) by (apply lt_0_INR; lia). pose proof PI_RGT_0 as Hpi. assert (H1 : 1 <= INR buf) by (change 1 with (INR 1); apply le_INR; lia).
  unfold wrap_angle. cbn [INR]. rewrite minus_INR, plus_INR, mult_INR by lia. change (INR 2) with 2. change (INR 1) with 1. split.
  - apply Rle_trans with 0; [|lra]. apply div_le_of; [assumption|]. nra.
  - apply Rle_trans with (2 * PI); [lra|]. apply le_div_of; [assumption|]. nra.
Qed.

(** ** The finest anchor *)
Definition rows_ok (conn : list (list (option R))) : Prop :=
  (exists m, nth_error conn 0 = Some [Some m]) /\ forall l row, nth_error conn l = Some row -> length row = (2 ^ l)%nat.

Lemma half_lt idx l : (idx < 2 ^ S l)%nat -> (idx / 2 < 2 ^ l)%nat.
Proof. intros H. apply Nat.div_lt_upper_bound; [lia|]. cbn [Nat.pow] in H. lia. Qed.

Lemma finest_shift conn level : forall rounds i idx, (i + rounds <= S level)%nat ->
  finest_loop rounds (S i) conn idx (S level) = finest_loop rounds i conn (idx / 2) level.
Proof.
  induction rounds as [|r IH]; intros i idx Hr; [reflexivity|]. cbn [finest_loop].
  replace (S level - S i)%nat with (level - i)%nat by lia. rewrite Nat.pow_succ_r', <- Nat.div_div by (try lia; apply Nat.pow_nonzero; lia).
  destruct (rd conn (level - i)) as [row|]; [|reflexivity]. destruct (rd row _) as [[v|]|]; try reflexivity. apply IH. lia.
Qed.

Lemma finest_step conn idx level : get_finest conn idx (S level) =
  match rd conn (S level) with
  | Some row => match rd row idx with Some (Some v) => Some v | Some None => get_finest conn (idx / 2) level | None => None end
  | None => None
  end.
Proof.
  unfold get_finest. change (finest_loop (S (S level)) 0 conn idx (S level)) with
    (match rd conn (S level - 0) with Some row => match rd row (idx / 2 ^ 0)%nat with Some r => match r with Some v => Some v | None => finest_loop (S level) 1 conn idx (S level) end | None => None end | None => None end).
  rewrite Nat.sub_0_r, Nat.pow_0_r, Nat.div_1_r. rewrite finest_shift by lia.
  destruct (rd conn (S level)) as [row|]; [|reflexivity]. destruct (rd row idx) as [[v|]|]; reflexivity.
Qed.

Lemma finest_ok conn : rows_ok conn -> forall level idx, (level < length conn)%nat -> (idx < 2 ^ level)%nat ->
  exists v, get_finest conn idx level = Some v.
Proof.
  intros [[m H0] Hrow]. induction level as [|level IH]; intros idx Hl Hi.
  - cbn in Hi. assert (idx = O) by lia. subst. unfold get_finest. cbn [finest_loop]. unfold rd. cbn [Nat.sub]. rewrite H0. cbn. eauto.
  - rewrite finest_step. unfold rd. destruct (nth_error conn (S level)) as [row|] eqn:E; [|apply nth_error_None in E; lia].
    pose proof (Hrow _ _ E) as Lr. destruct (nth_error row idx) as [[v|]|] eqn:Er; [eauto| |apply nth_error_None in Er; lia].
    apply IH; [lia|]. now apply half_lt.
Qed.
