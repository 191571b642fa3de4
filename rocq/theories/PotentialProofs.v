(** * Proofs about potential maps *)
From Verif Require Import PotentialModel PotentialSpec PhaseSpec LosSpec LoopFacts RealBase InterpProofs AccumProofs PhaseProofs.
From Verif Require KdeProofs2.
From Verif Require Import GoBase.
From Coq Require Import ZArith Reals List Lia Lra.
Import List ListNotations.
Local Open Scope R_scope.

Lemma chosen_app {A} (P : nat -> A -> Prop) k l1 l2 u1 u2 : chosen P k l1 u1 -> chosen P (k + length l1) l2 u2 -> chosen P k (l1 ++ l2) (u1 ++ u2).
Proof.
  intros H1 H2. induction H1 as [k|k a l u Ha Hc IH|k a l u Ha Hc IH]; cbn [app length] in *; [now rewrite Nat.add_0_r in H2| |];
    [apply chosen_yes|apply chosen_no]; try assumption; apply IH; now rewrite Nat.add_succ_comm.
Qed.
Lemma chosen_ext {A} (P Q : nat -> A -> Prop) l : forall k k' u, (forall i a, In a l -> P (k + i)%nat a <-> Q (k' + i)%nat a) -> chosen P k l u -> chosen Q k' l u.
Proof.
  induction l as [|a l IH]; intros k k' u H Hc; inversion Hc; subst.
  - constructor.
  - apply chosen_yes. { specialize (H 0%nat a (or_introl eq_refl)). rewrite !Nat.add_0_r in H. now apply H. } eapply IH; [|eassumption]. intros i b Hb. specialize (H (S i) b (or_intror Hb)). rewrite !Nat.add_succ_r in H. cbn. exact H.
  - apply chosen_no. { specialize (H 0%nat a (or_introl eq_refl)). rewrite !Nat.add_0_r in H. now rewrite <- H. } eapply IH; [|eassumption]. intros i b Hb. specialize (H (S i) b (or_intror Hb)). rewrite !Nat.add_succ_r in H. cbn. exact H.
Qed.
Lemma chosen_none {A} (P : nat -> A -> Prop) l : forall k, (forall i a, In a l -> ~ P i a) -> chosen P k l [].
Proof. induction l as [|a l IH]; intros k H; [constructor|]. apply chosen_no; [apply H; now left|]. apply IH. intros; apply H. now right. Qed.
Lemma chosen_fun {A} (P : nat -> A -> Prop) l : forall k u u', chosen P k l u -> chosen P k l u' -> u = u'.
Proof. induction l as [|a l IH]; intros k u u' H H'; inversion H; inversion H'; subst; try contradiction; [reflexivity|f_equal; eauto|eauto]. Qed.
Lemma chosen_in {A} (P : nat -> A -> Prop) l : forall k u a, chosen P k l u -> In a u -> In a l /\ exists i, P i a.
Proof. induction l as [|b l IH]; intros k u a H Hin; inversion H; subst; [destruct Hin| |]; [destruct Hin as [<-|Hin]; [split; [now left|eauto]|]|]; match goal with Hc : chosen _ _ l _ |- _ => destruct (IH _ _ a Hc Hin) end; split; auto; now right. Qed.

Lemma potential_app q l1 l2 : potential q (l1 ++ l2) = potential q l1 + potential q l2.
Proof. induction l1 as [|(x, m) l1 IH]; cbn [app potential]; [ring|rewrite IH; ring]. Qed.
Lemma potential_snoc q l x m : potential q (l ++ [(x, m)]) = potential q l - m / sqrt (dist2_3 x q).
Proof. rewrite potential_app. cbn [potential]. ring. Qed.

Lemma subtract_length f l : length (subtract_all f l) = length l.
Proof. unfold subtract_all. rewrite map_length, combine_length, seq_length. lia. Qed.
Lemma subtract_nth f l i : (i < length l)%nat -> nth i (subtract_all f l) 0 = nth i l 0 - f i.
Proof.
  intros Hi. unfold subtract_all. apply nth_error_nth. rewrite nth_error_map, (nth_error_nth' _ (0%nat, 0)) by (rewrite combine_length, seq_length; lia).
  rewrite combine_nth by apply seq_length. cbn [option_map fst snd]. now rewrite seq_nth by exact Hi.
Qed.

Section Pot.
Variable c : PotConf.
Hypothesis Hn : (2 <= tc_n c)%nat.
Variables (o : vec3) (r : R).
Hypothesis Hr : 0 < r.
Hypothesis Hmin : 0 <= tc_rMin c.
Hypothesis Hmax : 0 <= tc_rMax c.

Definition in_reach (x : vec3) : Prop := r * tc_rMin c <= sqrt (dist2_3 x o) <= r * tc_rMax c.

Lemma in_reach_dec (x : vec3) : let d := dist2_3 x o in
  (Rltb ((tc_rMax c * tc_rMax c) * (r * r)) d || Rltb d ((tc_rMin c * tc_rMin c) * (r * r)) = false) <-> in_reach x.
Proof.
  cbv zeta. unfold in_reach. set (d := dist2_3 x o).
  assert (Hd : 0 <= d) by (unfold d, dist2_3; destruct x as ((x0, x1), x2), o as ((o0, o1), o2); pose proof (Rle_0_sqr (x0 - o0)); pose proof (Rle_0_sqr (x1 - o1)); pose proof (Rle_0_sqr (x2 - o2)); unfold Rsqr in *; lra).
  pose proof (sqrt_pos d) as Hs. pose proof (sqrt_sqrt d Hd) as Hq. set (s := sqrt d) in *. clearbody s. clearbody d. rewrite Bool.orb_false_iff, !Rltb_false. subst d.
  assert (0 <= r * tc_rMin c) by nra. assert (0 <= r * tc_rMax c) by nra.
  replace (tc_rMax c * tc_rMax c * (r * r)) with ((r * tc_rMax c) * (r * tc_rMax c)) by ring. replace (tc_rMin c * tc_rMin c * (r * r)) with ((r * tc_rMin c) * (r * tc_rMin c)) by ring.
  set (A := r * tc_rMin c) in *. set (B := r * tc_rMax c) in *. clearbody A B. split; intros (H1 & H2); split; nra.
Qed.

Definition sized (phis : maps) : Prop := let '(xy, yz, xz) := phis in length xy = (tc_n c * tc_n c)%nat /\ length yz = (tc_n c * tc_n c)%nat /\ length xz = (tc_n c * tc_n c)%nat.
Definition at_xy (phis : maps) k : R := nth k (fst (fst phis)) 0.
Definition at_yz (phis : maps) k : R := nth k (snd (fst phis)) 0.
Definition at_xz (phis : maps) k : R := nth k (snd phis) 0.
(** phis' is phis plus the potential of the particles. *)
Definition gains (phis phis' : maps) (l : list (vec3 * R)) : Prop :=
  mirrored_maps (tc_n c) (r * tc_grid c) o l (fun k => at_xy phis' k - at_xy phis k) (fun k => at_yz phis' k - at_yz phis k) (fun k => at_xz phis' k - at_xz phis k).

Lemma index_ok i j : (i < tc_n c)%nat -> (j < tc_n c)%nat -> (j * tc_n c + i < tc_n c * tc_n c)%nat /\ ((j * tc_n c + i) mod tc_n c = i)%nat /\ ((j * tc_n c + i) / tc_n c = j)%nat.
Proof.
  intros Hi Hj. split; [nia|]. split.
  - rewrite Nat.add_comm, Nat.mod_add by lia. now apply Nat.mod_small.
  - rewrite Nat.add_comm, Nat.div_add by lia. now rewrite Nat.div_small.
Qed.

Lemma pot_point_in (x : vec3) m phis : sized phis -> in_reach x -> sized (pot_point c (o, r) x m phis) /\ gains phis (pot_point c (o, r) x m phis) [(x, m)].
Proof.
  intros Hsz Hx. destruct phis as ((xy, yz), xz). destruct Hsz as (L1 & L2 & L3).
  pose proof (proj2 (in_reach_dec x) Hx) as Hdec. unfold pot_point. cbv zeta in Hdec |- *. unfold dist2_3 in Hdec. destruct o as ((cx, cy), cz) eqn:Eo. destruct x as ((x, y), z). rewrite Hdec.
  split; [split; [|split]; rewrite subtract_length; assumption|].
  unfold gains, mirrored_maps, at_xy, at_yz, at_xz. cbn [fst snd]. intros i j Hi Hj. cbv zeta. destruct (index_ok i j Hi Hj) as (Hk & Em & Ed).
  rewrite !subtract_nth by lia. rewrite Em, Ed, Eo. cbn [potential minus3 dist2_3]. unfold grid_coord.
  assert (Hm : INR (tc_n c) - 1 <> 0). { assert (2 <= INR (tc_n c)) by (change 2 with (INR 2); now apply le_INR). lra. }
  split; [|split].
  - match goal with |- _ - _ / sqrt ?A - _ = 0 - _ / sqrt ?B => replace B with A by (unfold Rdiv; ring) end. ring.
  - match goal with |- _ - _ / sqrt ?A - _ = 0 - _ / sqrt ?B => replace B with A by (unfold Rdiv; ring) end. ring.
  - match goal with |- _ - _ / sqrt ?A - _ = 0 - _ / sqrt ?B => replace B with A by (unfold Rdiv; ring) end. ring.
Qed.

Lemma pot_point_out (x : vec3) m phis : ~ in_reach x -> pot_point c (o, r) x m phis = phis.
Proof.
  intros Hx. pose proof (in_reach_dec x) as Hdec. unfold pot_point. cbv zeta in Hdec |- *. unfold dist2_3 in Hdec. destruct o as ((cx, cy), cz). destruct x as ((x, y), z).
  destruct (Rltb _ _ || Rltb _ _); [reflexivity|]. exfalso. apply Hx, Hdec. reflexivity.
Qed.

Lemma gains_nil phis : gains phis phis [].
Proof. intros i j Hi Hj. cbv zeta. cbn [potential]. repeat split; ring. Qed.
Lemma gains_app p1 p2 p3 l1 l2 : gains p1 p2 l1 -> gains p2 p3 l2 -> gains p1 p3 (l1 ++ l2).
Proof.
  intros H1 H2 i j Hi Hj. specialize (H1 i j Hi Hj). specialize (H2 i j Hi Hj). cbv zeta in H1, H2 |- *. rewrite !potential_app.
  destruct H1 as (A1 & B1 & C1), H2 as (A2 & B2 & C2). rewrite <- A1, <- A2, <- B1, <- B2, <- C1, <- C2. repeat split; ring.
Qed.

Variable draw : nat -> R.
Definition picked (i : nat) (p : vec3 * R) : Prop := draw i <= tc_frac c /\ in_reach (fst p).

Lemma pot_points_ok (xs : list vec3) ms phis : length ms = length xs -> sized phis ->
  exists phis' used, pot_points c draw (o, r) xs ms phis = Some phis' /\ sized phis' /\ chosen picked 0 (combine xs ms) used /\ gains phis phis' used.
Proof.
  intros HL Hsz. unfold pot_points.
  set (body := fun (i : nat) (phis : maps) => _).
  assert (H : forall n, (n <= length xs)%nat -> exists p u, loop n body phis = Some p /\ sized p /\ chosen picked 0 (firstn n (combine xs ms)) u /\ gains phis p u).
  { induction n as [|n IH]; intros Hle.
    - exists phis, []. split; [reflexivity|]. split; [exact Hsz|]. split; [constructor|apply gains_nil].
    - destruct (IH ltac:(lia)) as (p & u & E & S1 & C1 & G1). cbn [loop]. rewrite E. unfold body.
      set (d := ((0, 0, 0, 0) : vec3 * R)).
      assert (Hsn : firstn (S n) (combine xs ms) = firstn n (combine xs ms) ++ [(nth n xs (0, 0, 0), nth n ms 0)]).
      { rewrite (KdeProofs2.firstn_snoc _ _ d); [|rewrite combine_length; lia]. f_equal. f_equal. unfold d. rewrite combine_nth by auto. reflexivity. }
      rewrite Hsn.
      assert (Lf : length (firstn n (combine xs ms)) = n) by (rewrite firstn_length, combine_length; lia).
      destruct (Rleb (draw n) (tc_frac c)) eqn:Ed.
      + apply Rleb_true in Ed. rewrite (rd_nth xs n (0, 0, 0)), (rd_nth ms n 0) by lia.
        assert (Hd : in_reach (nth n xs (0, 0, 0)) \/ ~ in_reach (nth n xs (0, 0, 0))).
        { unfold in_reach. match goal with |- ?A <= ?B <= ?C \/ _ => destruct (Rle_dec A B), (Rle_dec B C) end; [left; lra|right; lra|right; lra|right; lra]. }
        destruct Hd as [Hin|Hout].
        * destruct (pot_point_in (nth n xs (0, 0, 0)) (nth n ms 0) p S1 Hin) as (S2 & G2). exists (pot_point c (o, r) (nth n xs (0, 0, 0)) (nth n ms 0) p), (u ++ [(nth n xs (0, 0, 0), nth n ms 0)]).
          split; [reflexivity|]. split; [exact S2|]. split; [|exact (gains_app _ _ _ _ _ G1 G2)].
          apply chosen_app; [exact C1|]. rewrite Lf. apply chosen_yes; [split; [exact Ed|exact Hin]|constructor].
        * rewrite pot_point_out by exact Hout. exists p, u. split; [reflexivity|]. split; [exact S1|]. split; [|exact G1].
          rewrite <- (app_nil_r u). apply chosen_app; [exact C1|]. rewrite Lf. apply chosen_no; [intros (_ & H); now apply Hout|constructor].
      + apply Rleb_false in Ed. exists p, u. split; [reflexivity|]. split; [exact S1|]. split; [|exact G1].
        rewrite <- (app_nil_r u). apply chosen_app; [exact C1|]. rewrite Lf. apply chosen_no; [intros (H & _); cbn [Nat.add] in H; lra|constructor]. }
  destruct (H (length xs) ltac:(lia)) as (p & u & E & S1 & C1 & G1). exists p, u. split; [exact E|]. split; [exact S1|]. split; [|exact G1].
  rewrite firstn_all2 in C1 by (rewrite combine_length; lia). exact C1.
Qed.
End Pot.

(** ** The files of a snapshot *)
Definition masses_of (f : PFile) : list (vec3 * R) := combine (f_xs f) (f_ms f).
Definition pfile_ok (f : PFile) : Prop := length (f_ms f) = length (f_xs f) /\ Forall (in_region (f_origin f) (f_width f)) (f_xs f).

Section PotRows.
Variable c : PotConf.
Hypothesis Hn : (2 <= tc_n c)%nat.
Hypothesis Hmin : 0 <= tc_rMin c.
Hypothesis Hmax : 0 < tc_rMax c.
Variable draw : Z -> nat -> nat -> nat -> R.

(** No particle at exactly the largest distance. *)
Definition tOK (s : vec3 * R) (f : PFile) : Prop :=
  0 < snd s /\ pfile_ok f /\ forall x, In x (f_xs f) -> sqrt (dist2_3 x (fst s)) <> snd s * tc_rMax c.

Lemma scaled_back (s : vec3 * R) : snd s * tc_rMax c / tc_rMax c = snd s.
Proof. field. lra. Qed.

Lemma pot_insert_ok snap fi j s f phis : tOK s f -> pot_meets c s f = true -> sized c phis -> exists phis', pot_insert c draw snap fi j s f phis = Some phis' /\ sized c phis'.
Proof.
  intros (Hr & (HL & _) & _) _ Hsz. unfold pot_insert. rewrite scaled_back.
  destruct (pot_points_ok c Hn (fst s) (snd s) Hr Hmin (Rlt_le _ _ Hmax) (draw snap fi j) (f_xs f) (f_ms f) phis HL Hsz) as (p & u & E & S1 & _). eauto.
Qed.

Lemma row_fold_pot snap j (s : vec3 * R) : forall files fi phis, (forall f, In f files -> tOK s f) -> sized c phis ->
  exists phis' uses, row_fold (pot_meets c) (pot_insert c draw) snap fi j s files phis = Some phis' /\ sized c phis' /\
    length uses = length files /\ (forall k f, nth_error files k = Some f -> chosen (picked c (fst s) (snd s) (draw snap (fi + k)%nat j)) 0 (masses_of f) (nth k uses [])) /\
    gains c (fst s) (snd s) phis phis' (concat uses).
Proof.
  induction files as [|f files IH]; intros fi phis HOK Hsz; cbn [row_fold].
  - exists phis, []. split; [reflexivity|]. split; [exact Hsz|]. split; [reflexivity|]. split; [intros [|k]; discriminate|apply gains_nil].
  - destruct (HOK f (or_introl eq_refl)) as (Hr & (HL & Hreg) & Hne). unfold row_step.
    assert (Hstep : exists p1 u, (if pot_meets c s f then pot_insert c draw snap fi j s f phis else Some phis) = Some p1 /\ sized c p1 /\
      chosen (picked c (fst s) (snd s) (draw snap fi j)) 0 (masses_of f) u /\ gains c (fst s) (snd s) phis p1 u).
    { destruct (pot_meets c s f) eqn:Em.
      - unfold pot_insert. rewrite scaled_back. destruct (pot_points_ok c Hn (fst s) (snd s) Hr Hmin (Rlt_le _ _ Hmax) (draw snap fi j) (f_xs f) (f_ms f) phis HL Hsz) as (p & u & E & S1 & C1 & G1).
        exists p, u. repeat split; try assumption; apply G1; assumption.
      - exists phis, []. split; [reflexivity|]. split; [exact Hsz|]. split; [|apply gains_nil]. apply chosen_none. intros i (x, m) Hin (_ & Hx). cbn [fst] in Hx.
        assert (Hx' : In x (f_xs f)) by (unfold masses_of in Hin; now apply in_combine_l in Hin). rewrite Forall_forall in Hreg. specialize (Hreg x Hx'). specialize (Hne x Hx'). destruct Hx as (_ & Hx).
        unfold pot_meets in Em. rewrite (sphere_meets (fst s) (snd s * tc_rMax c) _ _ x (f_tw f)) in Em; [discriminate|apply Rmult_lt_0_compat; assumption|exact Hreg|]. destruct Hx; [assumption|contradiction]. }
    destruct Hstep as (p1 & u & E1 & S1 & C1 & G1). rewrite E1. destruct (IH (fi + 1)%nat p1) as (p2 & us & E2 & S2 & L2 & C2 & G2); [intros; apply HOK; now right|exact S1|].
    exists p2, (u :: us). split; [exact E2|]. split; [exact S2|]. split; [cbn [length]; congruence|]. split.
    + intros [|k] f'; cbn [nth_error nth]; [intros [= <-]; rewrite Nat.add_0_r; exact C1|]. intros Hk. replace (fi + S k)%nat with (fi + 1 + k)%nat by lia. now apply C2.
    + cbn [concat]. exact (gains_app _ _ _ _ _ _ _ _ G1 G2).
Qed.
End PotRows.
