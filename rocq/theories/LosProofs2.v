(** * Sequences of insertions, Split and Join of profile rings. *)
From Coq Require Import Reals Lra Lia ZArith List Bool.
From Verif Require Import LosModel LosSpec LoopFacts LosProofs.
Import List ListNotations.
Local Open Scope R_scope.

(** A sequence of Insert calls. *)
Fixpoint inserts (p : Ring) (ops : list plateau) : option Ring :=
  match ops with
  | [] => Some p
  | (s, e, rho, i) :: rest => do p' <- ring_insert p s e rho i; inserts p' rest
  end.

(** Every interval is well formed and every index is that of a profile. *)
Definition ops_ok (n : nat) (ops : list plateau) : Prop :=
  Forall (fun o : plateau => let '(s, e, _, i) := o in ordered s e /\ (i < n)%nat) ops.

Definition same_shape (p q : Ring) : Prop :=
  p_bins q = p_bins p /\ p_n q = p_n p /\ p_lowR q = p_lowR p /\ p_highR q = p_highR p /\ p_dr q = p_dr p.

Lemma same_shape_refl p : same_shape p p.
Proof. repeat split. Qed.
Lemma same_shape_trans p q r : same_shape p q -> same_shape q r -> same_shape p r.
Proof. unfold same_shape. intuition congruence. Qed.

Lemma inserts_app p a b : inserts p (a ++ b) = do p' <- inserts p a; inserts p' b.
Proof.
  revert p. induction a as [|(((s, e), rho), i) a IH]; intros p; cbn [inserts app]; [reflexivity|].
  destruct (ring_insert p s e rho i); [apply IH|reflexivity].
Qed.

Lemma inserts_spec ops : forall p, good p -> ops_ok (p_n p) ops ->
  exists p', inserts p ops = Some p' /\ good p' /\ same_shape p p' /\
    forall i j, (j < p_bins p)%nat ->
      rowsum (p_derivs p') (i * p_bins p) (S j) = rowsum (p_derivs p) (i * p_bins p) (S j) + density (p_lowR p) (p_dr p) i j ops.
Proof.
  induction ops as [|(((s, e), rho), k) ops IH]; intros p G Hok; cbn [inserts].
  - exists p. split; [reflexivity|]. split; [exact G|]. split; [apply same_shape_refl|]. intros i j Hj. cbn [density]. ring.
  - inversion Hok as [|x l Hx Hrest]; subst; destruct Hx as (Ho & Hk).
    destruct (ring_insert_spec p s e rho k G Hk Ho) as (p1 & E1 & G1 & B1 & N1 & L1 & H1 & D1 & R1). rewrite E1.
    destruct (IH p1 G1) as (p2 & E2 & G2 & S2 & R2); [rewrite N1; exact Hrest|].
    exists p2. split; [exact E2|]. split; [exact G2|]. split.
    + apply same_shape_trans with p1; [repeat split; assumption|exact S2].
    + intros i j Hj. rewrite B1 in R2. rewrite R2, R1 by exact Hj. rewrite L1, D1. cbn [density].
      rewrite (Nat.eqb_sym k i). ring.
Qed.

Lemma density_app lo dr i j a b : density lo dr i j (a ++ b) = density lo dr i j a + density lo dr i j b.
Proof. induction a as [|(((s, e), rho), k) a IH]; cbn [app density]; [ring|rewrite IH; ring]. Qed.

Lemma density_perm_index lo dr i j ops : (forall o, In o ops -> snd o <> i) -> density lo dr i j ops = 0.
Proof.
  induction ops as [|(((s, e), rho), k) ops IH]; intros H; cbn [density]; [reflexivity|].
  rewrite IH by (intros o Ho; apply H; right; exact Ho).
  destruct (Nat.eqb_spec k i) as [->|]; [exfalso; apply (H (s, e, rho, i)); [left; reflexivity|reflexivity]|ring].
Qed.

Lemma rowsum_zero d off m : (forall k, nth k d 0 = 0) -> rowsum d off m = 0.
Proof. intros H. induction m; cbn [rowsum]; [reflexivity|]. rewrite IHm, H. ring. Qed.

Lemma nth_repeat0 m k : nth k (repeat 0 m) 0 = 0.
Proof. revert k. induction m; intros [|k]; cbn; auto. Qed.

Lemma nth_map0 {A} (l : list A) k : nth k (map (fun _ => 0) l) 0 = 0.
Proof. revert k. induction l; intros [|k]; cbn; auto. Qed.

Lemma ring_init_good lo hi bins n : (0 < bins)%nat -> lo < hi -> good (ring_init lo hi bins n).
Proof. intros. unfold good, ring_init; cbn. rewrite repeat_length. auto. Qed.

Lemma ring_init_rows lo hi bins n i m : rowsum (p_derivs (ring_init lo hi bins n)) i m = 0.
Proof. apply rowsum_zero. intros; apply nth_repeat0. Qed.

(** A ring that Split can use as a worker of p: of different size, or of the same size and bin width. *)
Definition worker_for (p w : Ring) : Prop :=
  p_n w <> p_n p \/ p_bins w <> p_bins p \/ (length (p_derivs w) = (p_bins w * p_n w)%nat /\ p_dr w = p_dr p).

Lemma ring_split_spec p w : good p -> worker_for p w ->
  good (ring_split p w) /\ same_shape p (ring_split p w) /\ forall off m, rowsum (p_derivs (ring_split p w)) off m = 0.
Proof.
  intros G Hw. unfold ring_split.
  destruct (Nat.eqb_spec (p_n p) (p_n w)) as [En|En]; cbn [negb orb].
  1: destruct (Nat.eqb_spec (p_bins p) (p_bins w)) as [Eb|Eb]; cbn [negb].
  - destruct Hw as [?|[?|(Hl & Hd)]]; [congruence|congruence|].
    destruct G as (? & ? & ? & ?). split; [|split].
    + unfold good; cbn. rewrite map_length, Hl, Hd. repeat split; auto; congruence.
    + unfold same_shape; cbn. repeat split; congruence.
    + intros. apply rowsum_zero. intros; apply nth_map0.
  - destruct G as (? & ? & ? & Ed). split; [apply ring_init_good; auto|]. split; [|intros; apply ring_init_rows].
    unfold same_shape, ring_init; cbn. auto.
  - destruct G as (? & ? & ? & Ed). split; [apply ring_init_good; auto|]. split; [|intros; apply ring_init_rows].
    unfold same_shape, ring_init; cbn. auto.
Qed.

Lemma ring_join_spec p q : good p -> good q -> same_shape p q ->
  exists p', ring_join p q = Some p' /\ good p' /\ same_shape p p' /\
    forall off m, rowsum (p_derivs p') off m = rowsum (p_derivs p) off m + rowsum (p_derivs q) off m.
Proof.
  intros G Gq (Hb & Hn & Hl & Hh & Hd). unfold ring_join. rewrite Hb, Hn, !Nat.eqb_refl. cbn [negb orb].
  assert (Hlen : length (p_derivs q) = length (p_derivs p)).
  { destruct G as (_ & -> & _), Gq as (_ & -> & _). congruence. }
  destruct (loop_inv (fun m d => length d = length (p_derivs p) /\ (forall k, (k < m)%nat -> nth k d 0 = nth k (p_derivs p) 0 + nth k (p_derivs q) 0)
     /\ (forall k, (m <= k)%nat -> nth k d 0 = nth k (p_derivs p) 0)) (length (p_derivs q))
     (fun i d => do v <- rd (p_derivs q) i; do x <- rd d i; wr d i (x + v)) (p_derivs p)) as (d & E & I1 & I2 & I3).
  - repeat split; auto. intros; lia.
  - intros m d Hm (I1 & I2 & I3). rewrite (rd_nth _ _ 0 Hm), (rd_nth _ _ 0) by lia.
    destruct (wr_some d m (nth m d 0 + nth m (p_derivs q) 0) 0) as (d' & E' & L' & N'); [lia|].
    exists d'. split; [exact E'|]. split; [congruence|]. split; intros k Hk; rewrite N'.
    + destruct (Nat.eqb_spec k m) as [->|]; [rewrite I3 by lia; reflexivity|apply I2; lia].
    + destruct (Nat.eqb_spec k m) as [->|]; [lia|apply I3; lia].
  - rewrite E. eexists. split; [reflexivity|]. split; [|split].
    + destruct G as (? & ? & ? & ?). unfold good; cbn. repeat split; auto. congruence.
    + repeat split.
    + intros off m. cbn [p_derivs]. induction m as [|m IH]; cbn [rowsum]; [ring|]. rewrite IH.
      destruct (Nat.lt_ge_cases (off + m) (length (p_derivs q))) as [Hlt|Hge].
      * rewrite I2 by exact Hlt. ring.
      * rewrite I3 by exact Hge. rewrite (nth_overflow (p_derivs q)) by exact Hge. ring.
Qed.

(** Split one ring over worker rings, insert a list of plateaus into each, and join them all back. *)
Fixpoint join_all (p : Ring) (ws : list Ring) : option Ring :=
  match ws with [] => Some p | w :: rest => do p' <- ring_join p w; join_all p' rest end.
Fixpoint work_all (p : Ring) (jobs : list (Ring * list plateau)) : option (list Ring) :=
  match jobs with
  | [] => Some []
  | (w, ops) :: rest => do w' <- inserts (ring_split p w) ops; do ws <- work_all p rest; Some (w' :: ws)
  end.
Definition distribute (p : Ring) (own : list plateau) (jobs : list (Ring * list plateau)) : option Ring :=
  do ws <- work_all p jobs; do p' <- inserts p own; join_all p' ws.

Lemma work_all_spec p jobs : good p -> Forall (fun j => worker_for p (fst j) /\ ops_ok (p_n p) (snd j)) jobs ->
  exists ws, work_all p jobs = Some ws /\ Forall (fun w => good w /\ same_shape p w) ws /\
    forall i j, (j < p_bins p)%nat ->
      fold_right Rplus 0 (map (fun w => rowsum (p_derivs w) (i * p_bins p) (S j)) ws) =
      density (p_lowR p) (p_dr p) i j (concat (map snd jobs)).
Proof.
  intros G H. induction H as [|(w, ops) jobs (Hw & Hok) Hrest IH]; cbn [work_all map concat].
  - exists []. repeat split; auto.
  - cbn [fst snd] in *. destruct (ring_split_spec p w G Hw) as (Gs & Ss & Rs).
    pose proof Ss as (Eb & En & El & Eh & Ed).
    destruct (inserts_spec ops (ring_split p w) Gs) as (w' & E & G' & S' & R'); [rewrite En; exact Hok|].
    rewrite E. destruct IH as (ws & -> & Hws & Hsum). exists (w' :: ws). split; [reflexivity|]. split.
    + constructor; [|exact Hws]. split; [exact G'|]. apply same_shape_trans with (ring_split p w); assumption.
    + intros i j Hj. cbn [map fold_right]. rewrite (Hsum i j Hj), density_app. f_equal.
      rewrite Eb, El, Ed in R'. rewrite R' by exact Hj. rewrite Rs. ring.
Qed.

Lemma join_all_spec ws : forall p, good p -> Forall (fun w => good w /\ same_shape p w) ws ->
  exists p', join_all p ws = Some p' /\ good p' /\ same_shape p p' /\
    forall off m, rowsum (p_derivs p') off m = rowsum (p_derivs p) off m + fold_right Rplus 0 (map (fun w => rowsum (p_derivs w) off m) ws).
Proof.
  induction ws as [|w ws IH]; intros p G H; cbn [join_all map fold_right].
  - exists p. split; [reflexivity|]. split; [exact G|]. split; [apply same_shape_refl|]. intros; ring.
  - inversion H as [|x l Hx Hrest]; subst; destruct Hx as (Gw & Sw).
    destruct (ring_join_spec p w G Gw Sw) as (p1 & -> & G1 & S1 & R1).
    destruct (IH p1 G1) as (p2 & -> & G2 & S2 & R2).
    { eapply Forall_impl; [|exact Hrest]. intros a (Ga & Sa). split; [exact Ga|].
      unfold same_shape in *. intuition congruence. }
    exists p2. split; [reflexivity|]. split; [exact G2|]. split; [apply same_shape_trans with p1; assumption|].
    intros off m. rewrite R2, R1. ring.
Qed.

Lemma retrieve_ext p q i out : good p -> good q -> p_bins q = p_bins p -> p_n q = p_n p -> (i < p_n p)%nat -> (p_bins p <= length out)%nat ->
  (forall j, (j < p_bins p)%nat -> rowsum (p_derivs p) (i * p_bins p) (S j) = rowsum (p_derivs q) (i * p_bins p) (S j)) ->
  ring_retrieve p i out = ring_retrieve q i out.
Proof.
  intros G Gq Eb En Hi Hout H.
  destruct (ring_retrieve_spec p i out G Hi Hout) as (o1 & -> & L1 & A1 & B1).
  destruct (ring_retrieve_spec q i out Gq) as (o2 & -> & L2 & A2 & B2); [lia|lia|].
  f_equal. apply nth_ext with (d := 0) (d' := 0); [congruence|]. intros j Hj.
  destruct (Nat.lt_ge_cases j (p_bins p)).
  - rewrite A1, H, A2, Eb by lia. reflexivity.
  - rewrite B1, B2 by lia. reflexivity.
Qed.

Lemma distribute_spec p own jobs : good p -> ops_ok (p_n p) own ->
  Forall (fun j => worker_for p (fst j) /\ ops_ok (p_n p) (snd j)) jobs ->
  exists p', distribute p own jobs = Some p' /\ good p' /\ same_shape p p' /\
    forall i j, (j < p_bins p)%nat -> rowsum (p_derivs p') (i * p_bins p) (S j) =
      rowsum (p_derivs p) (i * p_bins p) (S j) + density (p_lowR p) (p_dr p) i j (own ++ concat (map snd jobs)).
Proof.
  intros G Hown Hjobs. unfold distribute.
  destruct (work_all_spec p jobs G Hjobs) as (ws & -> & Hws & Hsum).
  destruct (inserts_spec own p G Hown) as (p1 & -> & G1 & S1 & R1).
  destruct (join_all_spec ws p1 G1) as (p2 & E2 & G2 & S2 & R2).
  { eapply Forall_impl; [|exact Hws]. intros a (Ga & Sa). split; [exact Ga|]. unfold same_shape in *. intuition congruence. }
  exists p2. split; [exact E2|]. split; [exact G2|]. split; [apply same_shape_trans with p1; assumption|].
  intros i j Hj. rewrite R2, R1, Hsum, density_app by exact Hj. ring.
Qed.
