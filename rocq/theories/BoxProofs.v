(** * Proofs about boundingBox. *)
From Verif Require Import LosSpec BoxModel InterpProofs ShellProofs.
From Coq Require Import Reals Lra List ZArith Lia.
Import List ListNotations.
Local Open Scope R_scope.

(** x or one of its two neighbouring images lies in [o, o + w]. *)
Definition covers (L x : R) (b : R * R) : Prop := exists k : Z, (-1 <= k <= 1)%Z /\ fst b <= x + IZR k * L <= fst b + snd b.

(** The ends of the interval are images of seen coordinates, and it contains x1 itself. *)
Definition tight (L : R) (seen : list R) (b : R * R) : Prop :=
  (exists x k, In x seen /\ (-1 <= k <= 1)%Z /\ fst b = x + IZR k * L) /\
  (exists x k, In x seen /\ (-1 <= k <= 1)%Z /\ fst b + snd b = x + IZR k * L).

Lemma covers_grow L x b b' : covers L x b -> fst b' <= fst b -> fst b + snd b <= fst b' + snd b' -> covers L x b'.
Proof. intros (k & Hk & H) H1 H2. exists k. split; [exact Hk|]. destruct b, b'. cbn [fst snd] in *. lra. Qed.

Lemma box_coord_spec L x b seen x1 : 0 < L -> 0 <= snd b -> fst b <= x1 <= fst b + snd b -> tight L seen b ->
  let b' := box_coord L x b in
  covers L x b' /\ fst b' <= fst b /\ fst b + snd b <= fst b' + snd b' /\ 0 <= snd b' /\ tight L (x :: seen) b'.
Proof.
  intros HL Hw H1 (T1 & T2). destruct b as (x0, w). cbn [fst snd] in *. unfold box_coord.
  assert (T1' : exists y k, In y (x :: seen) /\ (-1 <= k <= 1)%Z /\ x0 = y + IZR k * L).
  { destruct T1 as (y & k & Hy & Hk). exists y, k. split; [now right|exact Hk]. }
  assert (T2' : exists y k, In y (x :: seen) /\ (-1 <= k <= 1)%Z /\ x0 + w = y + IZR k * L).
  { destruct T2 as (y & k & Hy & Hk). exists y, k. split; [now right|exact Hk]. }
  destruct (Rltb x0 x && Rltb x (x0 + w)) eqn:E.
  - apply andb_true_iff in E. destruct E as (E1 & E2). apply Rltb_true in E1, E2. cbn [fst snd].
    split; [exists 0%Z; cbn [fst snd]; split; [lia|lra]|]. repeat split; cbn [fst snd]; try lra; assumption.
  - clear E. set (x' := if Rltb (L / 2) (x - x0) then x - L else if Rltb (x - x0) (- (L / 2)) then x + L else x).
    assert (Hx' : exists k : Z, (-1 <= k <= 1)%Z /\ x' = x + IZR k * L).
    { unfold x'. destruct (Rltb (L / 2) (x - x0)); [exists (-1)%Z; split; [lia|lra]|].
      destruct (Rltb (x - x0) (- (L / 2))); [exists 1%Z; split; [lia|lra]|exists 0%Z; split; [lia|lra]]. }
    clearbody x'. destruct Hx' as (k & Hk & Hx').
    destruct (Rltb x' x0) eqn:E1; [|destruct (Rltb w (x' - x0)) eqn:E2].
    + apply Rltb_true in E1. cbn [fst snd].
      split; [exists k; cbn [fst snd]; split; [exact Hk|lra]|].
      split; [lra|]. split; [lra|]. split; [lra|]. split; cbn [fst snd].
      * exists x, k. split; [now left|]. split; [exact Hk|exact Hx'].
      * replace (x' + (w + (x0 - x'))) with (x0 + w) by lra. exact T2'.
    + apply Rltb_true in E2. apply Rltb_false in E1. cbn [fst snd].
      split; [exists k; cbn [fst snd]; split; [exact Hk|lra]|].
      split; [lra|]. split; [lra|]. split; [lra|]. split; cbn [fst snd]; [exact T1'|].
      exists x, k. split; [now left|]. split; [exact Hk|lra].
    + apply Rltb_false in E1, E2. cbn [fst snd].
      split; [exists k; cbn [fst snd]; split; [exact Hk|lra]|].
      split; [lra|]. split; [lra|]. split; [lra|]. split; assumption.
Qed.

Definition good_axis (L x1 : R) (seen : list R) (b : R * R) : Prop :=
  0 <= snd b /\ fst b <= x1 <= fst b + snd b /\ Forall (fun x => covers L x b) seen /\ tight L seen b.

Lemma good_axis_step L x1 seen b x : 0 < L -> good_axis L x1 seen b -> good_axis L x1 (x :: seen) (box_coord L x b).
Proof.
  intros HL (Hw & H1 & HF & HT). pose proof (box_coord_spec L x b seen x1 HL Hw H1 HT) as H. cbv zeta in H.
  destruct H as (C & A & B & D & T). split; [exact D|]. split; [lra|]. split; [|exact T].
  constructor; [exact C|]. eapply Forall_impl; [|exact HF]. intros y Hy. exact (covers_grow L y b _ Hy A B).
Qed.

Definition px (v : vec3) : R := fst (fst v).
Definition py (v : vec3) : R := snd (fst v).
Definition pz (v : vec3) : R := snd v.

Lemma box_fold L v1 xs : 0 < L -> forall seen bx by_ bz,
  good_axis L (px v1) (map px seen) bx -> good_axis L (py v1) (map py seen) by_ -> good_axis L (pz v1) (map pz seen) bz ->
  exists bx' by' bz', fold_left (box_step L) xs (bx, by_, bz) = (bx', by', bz') /\
    good_axis L (px v1) (map px (rev xs ++ seen)) bx' /\ good_axis L (py v1) (map py (rev xs ++ seen)) by' /\
    good_axis L (pz v1) (map pz (rev xs ++ seen)) bz'.
Proof.
  intros HL. induction xs as [|((x, y), z) xs IH]; intros seen bx by_ bz Gx Gy Gz; cbn [fold_left rev app].
  - exists bx, by_, bz. auto.
  - cbn [box_step].
    destruct (IH ((x, y, z) :: seen) (box_coord L x bx) (box_coord L y by_) (box_coord L z bz)) as (bx' & by' & bz' & E & H);
      try (cbn [map px py pz fst snd]; apply good_axis_step; assumption).
    exists bx', by', bz'. split; [exact E|]. rewrite <- app_assoc. exact H.
Qed.

(** Along one axis: what the result says about the coordinates. *)
Definition axis_ok (L o w : R) (xs : list R) : Prop :=
  (0 <= w <= L / 2 \/ (o = 0 /\ w = L)) /\
  (forall x, In x xs -> exists k : Z, (-1 <= k <= 1)%Z /\ o <= x + IZR k * L <= o + w) /\
  (w <= L / 2 -> - (L / 2) <= o /\ o + w <= 3 / 2 * L /\
    (exists x k, In x xs /\ o = x + IZR k * L) /\ (exists x k, In x xs /\ o + w = x + IZR k * L)).

Lemma limit_ok L x1 xs b : 0 < L -> 0 <= x1 < L -> (forall x, In x xs -> 0 <= x < L) -> good_axis L x1 xs b ->
  axis_ok L (fst (box_limit L b)) (snd (box_limit L b)) xs.
Proof.
  intros HL H1 Hin (Hw & Hx1 & HF & (T1 & T2)). unfold box_limit. destruct (Rltb (L / 2) (snd b)) eqn:E.
  - cbn [fst snd]. split; [right; split; reflexivity|]. split; [|intros; exfalso; lra].
    intros x Hx. exists 0%Z. specialize (Hin x Hx). split; [lia|lra].
  - apply Rltb_false in E. split; [left; lra|]. split.
    + intros x Hx. rewrite Forall_forall in HF. exact (HF x Hx).
    + intros _. split; [lra|]. split; [lra|]. split.
      * destruct T1 as (x & k & Hx & _ & Hk). exists x, k. auto.
      * destruct T2 as (x & k & Hx & _ & Hk). exists x, k. auto.
Qed.

Lemma good_axis_init L x : 0 < L -> good_axis L x [x] (x, 0).
Proof.
  intros HL. split; [cbn; lra|]. split; [cbn; lra|]. split.
  - constructor; [exists 0%Z; split; [lia|cbn; lra]|constructor].
  - split; exists x, 0%Z; (split; [now left|split; [lia|cbn; lra]]).
Qed.

Lemma axis_ok_ext L o w xs ys : (forall x, In x xs <-> In x ys) -> axis_ok L o w xs -> axis_ok L o w ys.
Proof.
  intros H (A & B & C). split; [exact A|]. split; [intros x Hx; apply B, H, Hx|].
  intros Hw. destruct (C Hw) as (C1 & C2 & (x & k & Hx & E) & (x' & k' & Hx' & E')). split; [exact C1|]. split; [exact C2|].
  split; [exists x, k|exists x', k']; (split; [now apply H|assumption]).
Qed.

Theorem bounding_box_spec L xs : 0 < L -> xs <> [] ->
  (forall v, In v xs -> 0 <= px v < L /\ 0 <= py v < L /\ 0 <= pz v < L) ->
  exists o w, bounding_box xs L = Some (o, w) /\
    axis_ok L (px o) (px w) (map px xs) /\ axis_ok L (py o) (py w) (map py xs) /\ axis_ok L (pz o) (pz w) (map pz xs).
Proof.
  intros HL Hne Hin. destruct xs as [|((x, y), z) xs']; [contradiction|]. unfold bounding_box. set (xs := (x, y, z) :: xs') in *.
  destruct (box_fold L (x, y, z) xs HL [(x, y, z)] (x, 0) (y, 0) (z, 0)) as (bx & by_ & bz & E & Gx & Gy & Gz);
    try (cbn [map px py pz fst snd]; apply good_axis_init; exact HL).
  rewrite E. eexists; eexists. split; [reflexivity|]. cbn [px py pz fst snd].
  destruct (Hin (x, y, z) (or_introl eq_refl)) as (Hx1 & Hy1 & Hz1).
  assert (Hmem : forall {A} (f : vec3 -> A) u, In u (map f (rev xs ++ [(x, y, z)])) <-> In u (map f xs)).
  { intros A f u. rewrite map_app, in_app_iff, map_rev, <- in_rev. cbn [map In]. split; [intros [H|[H|[]]]; [exact H|]|tauto].
    subst u. unfold xs. cbn [map]. now left. }
  split; [|split].
  - apply (axis_ok_ext _ _ _ _ _ (Hmem _ px)). apply (limit_ok L x); try assumption.
    intros u Hu. apply Hmem in Hu. apply in_map_iff in Hu. destruct Hu as (v & <- & Hv). apply (Hin v Hv).
  - apply (axis_ok_ext _ _ _ _ _ (Hmem _ py)). apply (limit_ok L y); try assumption.
    intros u Hu. apply Hmem in Hu. apply in_map_iff in Hu. destruct Hu as (v & <- & Hv). apply (Hin v Hv).
  - apply (axis_ok_ext _ _ _ _ _ (Hmem _ pz)). apply (limit_ok L z); try assumption.
    intros u Hu. apply Hmem in Hu. apply in_map_iff in Hu. destruct Hu as (v & <- & Hv). apply (Hin v Hv).
Qed.

(** One axis of the file test for a box that may reach over a face of the simulation. *)
Lemma in_range_straddle x r low width L p d : 0 < L -> - (L / 2) <= low -> low + width <= 3 / 2 * L -> 0 <= width -> 0 <= x <= L -> 0 < r ->
  low <= p <= low + width -> nearest_image L (p - x) d -> Rabs d < r -> r + width <= L / 2 -> in_range x r low width L = true.
Proof.
  intros HL Hlow Hhigh Hw Hx Hr Hp (Hd & k & Hk) Hdr Hs. unfold in_range.
  assert (Hd' : - r < d < r) by (unfold Rabs in Hdr; destruct (Rcase_abs d); lra).
  assert (Hk1 : (-1 <= k <= 1)%Z).
  { split; apply Z.nlt_ge; intros Hc; [assert (Hc' : (k <= -2)%Z) by lia|assert (Hc' : (2 <= k)%Z) by lia]; apply IZR_le in Hc'; nra. }
  unfold wrap_dist. cbv zeta. replace (L / -2) with (- (L / 2)) by field.
  assert (Hcase : k = (-1)%Z \/ k = 0%Z \/ k = 1%Z) by lia. destruct Hcase as [-> |[-> | ->]].
  - apply orb_true_iff. right. apply andb_true_iff. rewrite !Rltb_true.
    split; [destruct (Rltb_spec (L / 2) (x - low))|destruct (Rltb_spec (L / 2) (x - (low + width)))]; try lra;
      match goal with |- context [Rltb ?a ?b] => destruct (Rltb_spec a b) end; lra.
  - apply orb_true_iff. left. apply andb_true_iff. rewrite !Rltb_true. lra.
  - apply orb_true_iff. right. apply andb_true_iff. rewrite !Rltb_true.
    split; [destruct (Rltb_spec (L / 2) (x - low))|destruct (Rltb_spec (L / 2) (x - (low + width)))]; try lra;
      match goal with |- context [Rltb ?a ?b] => destruct (Rltb_spec a b) end; lra.
Qed.
