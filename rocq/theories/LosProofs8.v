(** * Split and Join of halos. *)
From Coq Require Import Reals Lra Lia ZArith List Bool.
From Verif Require Import LosModel LosSpec LoopFacts LosProofs LosProofs2 LosProofs3 LosProofs4 LosProofs5 LosProofs6 LosProofs7 InterpProofs ShellProofs ShellModel.
Import List ListNotations.
Local Open Scope R_scope.

(** H is h with f added to bin j of line i of every ring. *)
Definition adds (h H : Halo) (f : nat -> nat -> nat -> R) : Prop :=
  exists profs', H = with_profs h profs' /\ length profs' = length (h_profs h) /\
    forall ring p, nth_error (h_profs h) ring = Some p -> exists p', nth_error profs' ring = Some p' /\ good p' /\ same_shape p p' /\
      forall i j, (j < p_bins p)%nat -> rowsum (p_derivs p') (i * p_bins p) (S j) = rowsum (p_derivs p) (i * p_bins p) (S j) + f ring i j.

(** The density that spheres add. *)
Definition ring_rots (h : Halo) (ring : nat) : option (vec * matrix) :=
  match nth_error (h_norms h) ring, nth_error (h_rots h) ring with Some a, Some b => Some (a, b) | _, _ => None end.
Definition added (h : Halo) (ss : list sphere) (ring i j : nat) : R :=
  match ring_rots h ring with
  | Some (norm, rot) => density (ln (h_rMin h)) ((ln (h_rMax h) - ln (h_rMin h)) / INR (h_bins h)) i j (flat_map (fun s => ring_ops h s norm rot) ss)
  | None => 0
  end.

Lemma added_app h a b ring i j : added h (a ++ b) ring i j = added h a ring i j + added h b ring i j.
Proof. unfold added. destruct (ring_rots h ring) as [(norm, rot)|]; [|ring]. rewrite flat_map_app, density_app. reflexivity. Qed.

Lemma core_lookup h ring p : good_core h -> nth_error (h_profs h) ring = Some p ->
  exists norm rot, nth_error (h_norms h) ring = Some norm /\ nth_error (h_rots h) ring = Some rot /\ dot3 norm norm = 1 /\
    euler_between norm zaxis zero9 = Some rot /\ ring_rots h ring = Some (norm, rot).
Proof.
  intros G Ep. assert (Hl : (ring < length (h_profs h))%nat) by (apply nth_error_Some; congruence). rewrite (gh_profs h G) in Hl.
  destruct (nth_error (h_norms h) ring) as [norm|] eqn:En; [|apply nth_error_None in En; rewrite (gh_norms h G) in En; lia].
  destruct (gh_ring h G ring norm En) as (Hu & (rot & Er & Hm)).
  exists norm, rot. unfold ring_rots. rewrite En, Er. auto.
Qed.

Lemma core_dr h ring p : good_core h -> nth_error (h_profs h) ring = Some p -> p_dr p = (ln (h_rMax h) - ln (h_rMin h)) / INR (h_bins h).
Proof. intros G Ep. destruct (gh_prof h G ring p Ep) as ((_ & _ & _ & Hd) & Hn & Hb & Hl & Hh). rewrite Hd, Hh, Hl, Hb. reflexivity. Qed.

Lemma halo_inserts_adds h ss : good_core h -> exists H, halo_inserts h ss = Some H /\ good_core H /\ adds h H (added h ss).
Proof.
  intros G. destruct (halo_inserts_spec ss h G) as (profs' & E & L & G' & N). eexists. split; [exact E|]. split; [exact G'|].
  exists profs'. split; [reflexivity|]. split; [exact L|]. intros ring p Ep.
  destruct (core_lookup h ring p G Ep) as (norm & rot & En & Er & Hu & Hm & Hrr).
  destruct (N ring norm rot p En Er Ep) as (p' & Ep' & Ei).
  destruct (gh_prof h G ring p Ep) as (Gp & Np & Bp & Lp & Hp).
  destruct (inserts_spec (flat_map (fun s => ring_ops h s norm rot) ss) p Gp) as (p2 & E2 & G2 & S2 & R2).
  { rewrite Np. apply Forall_forall. intros o Ho. apply in_flat_map in Ho. destruct Ho as (s & _ & Ho).
    pose proof (ring_ops_ok h s norm rot (gh_rays h G) Hu Hm) as Hok. unfold ops_ok in Hok. rewrite Forall_forall in Hok. apply Hok; exact Ho. }
  assert (p2 = p') by congruence. subst p2.
  exists p'. split; [exact Ep'|]. split; [exact G2|]. split; [exact S2|]. intros i j Hj. rewrite R2 by exact Hj.
  unfold added. rewrite Hrr, Lp, (core_dr h ring p G Ep). reflexivity.
Qed.

(** A worker halo that Split may be given: of different size, or last used by a halo with the same bin width. *)
Definition worker_halo (h w : Halo) : Prop :=
  h_rings w <> h_rings h \/ h_bins w <> h_bins h \/ h_n w <> h_n h \/
  (rays_ok w /\ length (h_profs w) = h_rings w /\
   forall ring q, nth_error (h_profs w) ring = Some q -> p_n q = h_n w /\ p_bins q = h_bins w /\
     length (p_derivs q) = (p_bins q * p_n q)%nat /\ p_dr q = (ln (h_rMax h) - ln (h_rMin h)) / INR (h_bins h)).

(** The result of Split: an empty halo of the same geometry (its irots and defaultRho may be stale). *)
Definition empty_like (h w : Halo) : Prop :=
  good_core w /\ h_origin w = h_origin h /\ h_rings w = h_rings h /\ h_bins w = h_bins h /\ h_n w = h_n h /\
  h_rMin w = h_rMin h /\ h_rMax w = h_rMax h /\ h_dPhi w = h_dPhi h /\ h_norms w = h_norms h /\
  (forall ring norm, nth_error (h_norms h) ring = Some norm -> nth_error (h_rots w) ring = nth_error (h_rots h) ring) /\
  forall ring p, nth_error (h_profs w) ring = Some p -> forall off m, rowsum (p_derivs p) off m = 0.

Lemma nth_error_wr {A} (l l' : list A) i v : wr l i v = Some l' -> length l' = length l /\
  forall k, nth_error l' k = if (k =? i)%nat then Some v else nth_error l k.
Proof.
  intros E. assert (Hi : (i < length l)%nat).
  { destruct (Nat.lt_ge_cases i (length l)); [assumption|]. rewrite wr_none in E by assumption. discriminate. }
  destruct (wr_some l i v v Hi) as (l2 & E2 & L2 & N2). rewrite E2 in E. injection E as <-. split; [exact L2|].
  intros k. destruct (Nat.lt_ge_cases k (length l2)) as [Hk|Hk].
  - rewrite (nth_error_nth' l2 v Hk), N2. destruct (k =? i)%nat; [reflexivity|]. symmetry. apply nth_error_nth'. lia.
  - rewrite (proj2 (nth_error_None l2 k)) by lia. destruct (Nat.eqb_spec k i); [lia|]. symmetry. apply nth_error_None. lia.
Qed.

(** What Split relies on in the halo whose rings it resets. *)
Definition split_base (h hi : Halo) : Prop :=
  rays_ok hi /\ h_origin hi = h_origin h /\ h_rings hi = h_rings h /\ h_bins hi = h_bins h /\ h_n hi = h_n h /\
  h_rMin hi = h_rMin h /\ h_rMax hi = h_rMax h /\ h_norms hi = h_norms h /\
  (forall ring norm, nth_error (h_norms h) ring = Some norm -> nth_error (h_rots hi) ring = nth_error (h_rots h) ring) /\
  length (h_profs hi) = h_rings h /\
  forall ring q, nth_error (h_profs hi) ring = Some q -> p_n q = h_n h /\ p_bins q = h_bins h /\
   length (p_derivs q) = (p_bins q * p_n q)%nat /\ p_dr q = (ln (h_rMax h) - ln (h_rMin h)) / INR (h_bins h).

Lemma good_core_unit h : good_core h -> Forall (fun v : vec3 => dot3 v v = 1) (h_norms h).
Proof.
  intros G. apply Forall_forall. intros v Hv. apply In_nth_error in Hv. destruct Hv as (k & Hk). apply (gh_ring h G k v Hk).
Qed.

Lemma split_base_init h : good_core h -> (0 < h_bins h)%nat -> 0 < h_rMin h < h_rMax h ->
  exists hi, halo_init (h_norms h) (h_origin h) (h_rMin h) (h_rMax h) (h_bins h) (h_n h) (h_defaultRho h) = Some hi /\ split_base h hi.
Proof.
  intros G Hb Hr. pose proof (gh_rays h G) as (Hn & _).
  destruct (halo_init_good (h_norms h) (h_origin h) (h_rMin h) (h_rMax h) (h_bins h) (h_n h) (h_defaultRho h) Hb Hn Hr (good_core_unit h G))
    as (hi & E & (G' & _) & E1 & E2 & E3 & E4 & E5 & E6 & E7 & E8 & E9).
  exists hi. split; [exact E|]. rewrite (gh_norms h G) in E3. unfold split_base.
  split; [apply (gh_rays hi G')|]. repeat (split; [assumption|]). split; [|split].
  - intros ring norm En. destruct (gh_ring h G ring norm En) as (_ & (rot & -> & Hm)).
    rewrite <- E1 in En. destruct (gh_ring hi G' ring norm En) as (_ & (rot' & -> & Hm')). congruence.
  - rewrite E9, map_length. apply (gh_norms h G).
  - intros ring q Eq. rewrite E9, nth_error_map in Eq. destruct (nth_error (h_norms h) ring); [|discriminate]. injection Eq as <-.
    cbn. rewrite repeat_length. auto.
Qed.

Lemma halo_split_spec h w : good_core h -> (0 < h_bins h)%nat -> 0 < h_rMin h < h_rMax h -> worker_halo h w ->
  exists w', halo_split1 h w = Some w' /\ empty_like h w'.
Proof.
  intros G Hb Hr Hw. unfold halo_split1.
  assert (Hbase : exists hi, (if (h_rings h =? h_rings w)%nat && (h_bins h =? h_bins w)%nat && (h_n h =? h_n w)%nat then
      Some (mkHalo (h_origin h) (h_rings w) (h_bins w) (h_n w) (h_rMin h) (h_rMax h) (h_ringVecs w) (h_dPhi w)
        (h_rots h) (h_irots w) (h_norms h) (h_profs w) (h_defaultRho w))
    else halo_init (h_norms h) (h_origin h) (h_rMin h) (h_rMax h) (h_bins h) (h_n h) (h_defaultRho h)) = Some hi /\ split_base h hi).
  { destruct (Nat.eqb_spec (h_rings h) (h_rings w)) as [E1|E1]; cbn [andb]; [|apply split_base_init; assumption].
    destruct (Nat.eqb_spec (h_bins h) (h_bins w)) as [E2|E2]; cbn [andb]; [|apply split_base_init; assumption].
    destruct (Nat.eqb_spec (h_n h) (h_n w)) as [E3|E3]; [|apply split_base_init; assumption].
    destruct Hw as [?|[?|[?|(W1 & W2 & W3)]]]; try congruence.
    eexists. split; [reflexivity|]. unfold split_base. cbn [h_origin h_rings h_bins h_n h_rMin h_rMax h_norms h_rots h_profs].
    split; [exact W1|]. split; [reflexivity|]. repeat (split; [congruence|]).
    intros ring q Eq. rewrite E3. rewrite E2 at 1. apply W3 with (ring := ring). exact Eq. }
  destruct Hbase as (hi & -> & B1 & B2 & B3 & B4 & B5 & B6 & B7 & B8 & B9 & B10 & B11).
  assert (Hw0 : forall m p q, nth_error (h_profs h) m = Some p -> nth_error (h_profs hi) m = Some q -> worker_for p q).
  { intros m p q Ep Eq. right. right. destruct (B11 m q Eq) as (_ & _ & ? & ?). split; [assumption|].
    rewrite (core_dr h m p G Ep). assumption. }
  destruct (loop_inv (fun m (profs : list Ring) => length profs = length (h_profs hi) /\
     (forall k, (m <= k)%nat -> nth_error profs k = nth_error (h_profs hi) k) /\
     (forall k p q, (k < m)%nat -> nth_error (h_profs h) k = Some p -> nth_error (h_profs hi) k = Some q -> nth_error profs k = Some (ring_split p q)))
     (length (h_profs h)) (fun r profs => do p <- rd (h_profs h) r; do q <- rd profs r; wr profs r (ring_split p q)) (h_profs hi))
    as (profs & E & I1 & I2 & I3).
  - repeat split; auto. intros; lia.
  - intros m profs Hm (I1 & I2 & I3).
    destruct (nth_error (h_profs h) m) as [p|] eqn:Ep; [|apply nth_error_None in Ep; lia].
    destruct (nth_error (h_profs hi) m) as [q|] eqn:Eq; [|apply nth_error_None in Eq; rewrite (gh_profs h G) in Hm; lia].
    unfold rd. rewrite Ep, I2, Eq by lia.
    assert (Hl : (m < length profs)%nat) by (rewrite I1; apply nth_error_Some; congruence).
    destruct (wr_some profs m (ring_split p q) p Hl) as (profs' & E' & _). rewrite E'.
    destruct (nth_error_wr _ _ _ _ E') as (L' & N').
    exists profs'. split; [reflexivity|]. split; [congruence|]. split.
    + intros k Hk. rewrite N'. destruct (Nat.eqb_spec k m); [lia|]. apply I2; lia.
    + intros k p' q' Hk A B. rewrite N'. destruct (Nat.eqb_spec k m) as [->|]; [congruence|]. apply I3; auto; lia.
  - rewrite E. eexists. split; [reflexivity|].
    assert (HP : forall ring p', nth_error profs ring = Some p' -> exists p, nth_error (h_profs h) ring = Some p /\ good p' /\ same_shape p p' /\
      forall off m, rowsum (p_derivs p') off m = 0).
    { intros ring p' E'. assert (Hl : (ring < length profs)%nat) by (apply nth_error_Some; congruence).
      rewrite I1, B10 in Hl. destruct (nth_error (h_profs h) ring) as [p|] eqn:Ep; [|apply nth_error_None in Ep; rewrite (gh_profs h G) in Ep; lia].
      destruct (nth_error (h_profs hi) ring) as [q|] eqn:Eq; [|apply nth_error_None in Eq; lia].
      rewrite (I3 ring p q) in E' ; [|rewrite (gh_profs h G); lia|exact Ep|exact Eq]. injection E' as <-. exists p. split; [reflexivity|].
      apply ring_split_spec; [apply (gh_prof h G ring p Ep)|apply (Hw0 ring); assumption]. }
    unfold empty_like. cbn [h_origin h_rings h_bins h_n h_rMin h_rMax h_norms h_rots h_profs h_dPhi].
    split; [|split; [exact B2|split; [exact B3|split; [exact B4|split; [exact B5|split; [exact B6|split; [exact B7|]]]]]]].
    + constructor; cbn [h_origin h_rings h_bins h_n h_rMin h_rMax h_norms h_rots h_profs h_dPhi].
      * exact B1.
      * rewrite B8, B3. apply (gh_norms h G).
      * rewrite I1, B3. exact B10.
      * intros ring norm En. rewrite B8 in En. destruct (gh_ring h G ring norm En) as (Hu & (rot & Er & Hm)). split; [exact Hu|].
        exists rot. rewrite (B9 ring norm En). auto.
      * intros ring p' E'. destruct (HP ring p' E') as (p & Ep & G' & (S1 & S2 & S3 & S4 & S5) & _).
        destruct (gh_prof h G ring p Ep) as (_ & Np & Bp & Lp & Hp). split; [exact G'|]. repeat split; congruence.
    + split; [|split; [exact B8|split]].
      * destruct B1 as (_ & _ & B1), (gh_rays h G) as (_ & _ & G1). rewrite B1, G1, B5. reflexivity.
      * exact B9.
      * intros ring p' E'. destruct (HP ring p' E') as (p & _ & _ & _ & Z). exact Z.
Qed.

(** ** Join *)

Lemma halo_join_spec h H : good_core h -> h_rings H = h_rings h -> h_bins H = h_bins h -> h_n H = h_n h -> good_core H ->
  h_rMin H = h_rMin h -> h_rMax H = h_rMax h ->
  exists h', halo_join1 h H = Some h' /\ good_core h' /\
    adds h h' (fun ring i j => match nth_error (h_profs H) ring with Some q => rowsum (p_derivs q) (i * h_bins h) (S j) | None => 0 end).
Proof.
  intros G E1 E2 E3 GH E4 E5. unfold halo_join1. rewrite E1, E2, E3, !Nat.eqb_refl. cbn [andb].
  destruct (loop_inv (fun m (profs : list Ring) => length profs = length (h_profs h) /\
     (forall k, (m <= k)%nat -> nth_error profs k = nth_error (h_profs h) k) /\
     (forall k p q, (k < m)%nat -> nth_error (h_profs h) k = Some p -> nth_error (h_profs H) k = Some q ->
        exists p', nth_error profs k = Some p' /\ ring_join p q = Some p'))
     (length (h_profs h)) (fun r profs => do p <- rd profs r; do q <- rd (h_profs H) r; do p' <- ring_join p q; wr profs r p') (h_profs h))
    as (profs & E & I1 & I2 & I3).
  - repeat split; auto. intros; lia.
  - intros m profs Hm (I1 & I2 & I3).
    destruct (nth_error (h_profs h) m) as [p|] eqn:Ep; [|apply nth_error_None in Ep; lia].
    destruct (nth_error (h_profs H) m) as [q|] eqn:Eq; [|apply nth_error_None in Eq; rewrite (gh_profs H GH), E1, <- (gh_profs h G) in Eq; lia].
    unfold rd. rewrite I2, Ep, Eq by lia.
    destruct (gh_prof h G m p Ep) as (Gp & Np & Bp & Lp & Hp). destruct (gh_prof H GH m q Eq) as (Gq & Nq & Bq & Lq & Hq).
    destruct (ring_join_spec p q Gp Gq) as (p' & Ej & _).
    { unfold same_shape. rewrite (core_dr h m p G Ep), (core_dr H m q GH Eq). repeat split; congruence. }
    rewrite Ej. assert (Hl : (m < length profs)%nat) by (rewrite I1; exact Hm).
    destruct (wr_some profs m p' p Hl) as (profs' & E' & _). rewrite E'. destruct (nth_error_wr _ _ _ _ E') as (L' & N').
    exists profs'. split; [reflexivity|]. split; [congruence|]. split.
    + intros k Hk. rewrite N'. destruct (Nat.eqb_spec k m); [lia|]. apply I2; lia.
    + intros k pk qk Hk A B. rewrite N'. destruct (Nat.eqb_spec k m) as [->|].
      * exists p'. split; [reflexivity|]. congruence.
      * apply I3; auto; lia.
  - rewrite E. eexists. split; [reflexivity|].
    assert (HP : forall ring p, nth_error (h_profs h) ring = Some p -> exists p' q, nth_error profs ring = Some p' /\ nth_error (h_profs H) ring = Some q /\
      good p' /\ same_shape p p' /\ forall off m, rowsum (p_derivs p') off m = rowsum (p_derivs p) off m + rowsum (p_derivs q) off m).
    { intros ring p Ep. assert (Hl : (ring < length (h_profs h))%nat) by (apply nth_error_Some; congruence).
      destruct (nth_error (h_profs H) ring) as [q|] eqn:Eq; [|apply nth_error_None in Eq; rewrite (gh_profs H GH), E1, <- (gh_profs h G) in Eq; lia].
      destruct (I3 ring p q Hl Ep Eq) as (p' & Ep' & Ej).
      destruct (gh_prof h G ring p Ep) as (Gp & Np & Bp & Lp & Hp). destruct (gh_prof H GH ring q Eq) as (Gq & Nq & Bq & Lq & Hq).
      destruct (ring_join_spec p q Gp Gq) as (p2 & Ej2 & G2 & S2 & R2).
      { unfold same_shape. rewrite (core_dr h ring p G Ep), (core_dr H ring q GH Eq). repeat split; congruence. }
      assert (p2 = p') by congruence. subst p2. exists p', q. auto. }
    split.
    + fold (with_profs h profs). apply good_with_profs; [exact G|exact I1|]. intros ring p' E'.
      assert (Hl : (ring < length profs)%nat) by (apply nth_error_Some; congruence).
      destruct (nth_error (h_profs h) ring) as [p|] eqn:Ep; [|apply nth_error_None in Ep; lia].
      destruct (HP ring p Ep) as (p2 & q & Ep2 & _ & G2 & (S1 & S2 & S3 & S4 & S5) & _).
      assert (p2 = p') by congruence. subst p2. destruct (gh_prof h G ring p Ep) as (Gp & Np & Bp & Lp & Hp).
      split; [exact G2|]. repeat split; congruence.
    + exists profs. split; [reflexivity|]. split; [exact I1|]. intros ring p Ep.
      destruct (HP ring p Ep) as (p' & q & Ep' & Eq & G2 & S2 & R2). exists p'. split; [exact Ep'|]. split; [exact G2|]. split; [exact S2|].
      intros i j Hj. rewrite R2, Eq. destruct (gh_prof h G ring p Ep) as (_ & _ & -> & _). reflexivity.
Qed.

(** ** Distributing spheres over workers *)

Fixpoint halo_work (h : Halo) (jobs : list (Halo * list sphere)) : option (list Halo) :=
  match jobs with
  | [] => Some []
  | (w, ss) :: rest => do w1 <- halo_split1 h w; do w2 <- halo_inserts w1 ss; do ws <- halo_work h rest; Some (w2 :: ws)
  end.
Fixpoint halo_joins (h : Halo) (ws : list Halo) : option Halo :=
  match ws with [] => Some h | w :: rest => do h' <- halo_join1 h w; halo_joins h' rest end.
(** Split h over worker halos, insert spheres into h and into the workers, and join the workers back. *)
Definition halo_distribute (h : Halo) (own : list sphere) (jobs : list (Halo * list sphere)) : option Halo :=
  do ws <- halo_work h jobs; do h' <- halo_inserts h own; halo_joins h' ws.

Lemma added_like h w ss ring p i j : good_core h -> nth_error (h_profs h) ring = Some p -> empty_like h w -> added w ss ring i j = added h ss ring i j.
Proof.
  intros G Ep (Gw & E1 & E2 & E3 & E4 & E5 & E6 & E7 & E8 & E9 & _).
  destruct (core_lookup h ring p G Ep) as (norm & rot & En & Er & _ & _ & Hrr).
  unfold added. rewrite Hrr. unfold ring_rots. rewrite E8, En, (E9 ring norm En), Er. rewrite E3, E5, E6. f_equal.
  apply flat_map_ext. intros ((v, radius), rho). unfold ring_ops. rewrite E1. destruct v as ((x, y), z), (h_origin h) as ((x0, y0), z0).
  destruct (sphere_intersect_ring norm (x - x0, y - y0, z - z0) radius); [|reflexivity].
  destruct (rotate_vec (x - x0, y - y0, z - z0) rot) as [((cx, cy), cz)|]; [|reflexivity].
  unfold circle_ops, idx_range. rewrite E4, E7. reflexivity.
Qed.

(** What one worker returns. *)
Definition worked (h w : Halo) (ss : list sphere) : Prop :=
  good_core w /\ h_rings w = h_rings h /\ h_bins w = h_bins h /\ h_n w = h_n h /\ h_rMin w = h_rMin h /\ h_rMax w = h_rMax h /\
  forall ring p, nth_error (h_profs h) ring = Some p -> exists q, nth_error (h_profs w) ring = Some q /\
    forall i j, (j < h_bins h)%nat -> rowsum (p_derivs q) (i * h_bins h) (S j) = added h ss ring i j.

Lemma one_work h w ss : good_core h -> (0 < h_bins h)%nat -> 0 < h_rMin h < h_rMax h -> worker_halo h w ->
  exists w1 w2, halo_split1 h w = Some w1 /\ halo_inserts w1 ss = Some w2 /\ worked h w2 ss.
Proof.
  intros G Hb Hr Hw. destruct (halo_split_spec h w G Hb Hr Hw) as (w1 & E1 & Hl).
  pose proof Hl as (G1 & L1 & L2 & L3 & L4 & L5 & L6 & L7 & L8 & L9 & L10).
  destruct (halo_inserts_adds w1 ss G1) as (w2 & E2 & G2 & profs' & -> & Lp & Hadd).
  exists w1, (with_profs w1 profs'). split; [exact E1|]. split; [exact E2|].
  split; [exact G2|]. cbn [with_profs h_rings h_bins h_n h_rMin h_rMax h_profs]. repeat (split; [assumption|]).
  intros ring p Ep.
  assert (Hlt : (ring < length (h_profs w1))%nat).
  { rewrite (gh_profs w1 G1), L2, <- (gh_profs h G). apply nth_error_Some. congruence. }
  destruct (nth_error (h_profs w1) ring) as [q|] eqn:Eq; [|apply nth_error_None in Eq; lia].
  destruct (Hadd ring q Eq) as (q' & Eq' & _ & _ & Hq). exists q'. split; [exact Eq'|]. intros i j Hj.
  destruct (gh_prof w1 G1 ring q Eq) as (_ & _ & Bq & _). rewrite Bq, L3 in Hq. rewrite (Hq i j Hj), (L10 ring q Eq).
  rewrite (added_like h w1 ss ring p i j G Ep Hl). ring.
Qed.

Lemma halo_work_spec h jobs : good_core h -> (0 < h_bins h)%nat -> 0 < h_rMin h < h_rMax h -> Forall (fun j => worker_halo h (fst j)) jobs ->
  exists ws, halo_work h jobs = Some ws /\ Forall2 (fun w j => worked h w (snd j)) ws jobs.
Proof.
  intros G Hb Hr H. induction H as [|(w, ss) jobs Hw Hrest IH]; cbn [halo_work].
  - exists []. split; [reflexivity|constructor].
  - cbn [fst] in Hw. destruct (one_work h w ss G Hb Hr Hw) as (w1 & w2 & -> & -> & W). destruct IH as (ws & -> & F).
    exists (w2 :: ws). split; [reflexivity|]. constructor; [exact W|exact F].
Qed.

Lemma adds_trans h h1 h2 f g : adds h h1 f -> adds h1 h2 g -> adds h h2 (fun ring i j => f ring i j + g ring i j).
Proof.
  intros (p1 & -> & L1 & A1) (p2 & -> & L2 & A2). exists p2. split; [reflexivity|]. cbn in L2. split; [congruence|].
  intros ring p Ep. destruct (A1 ring p Ep) as (q1 & E1 & G1 & S1 & R1). destruct (A2 ring q1 E1) as (q2 & E2 & G2 & S2 & R2).
  exists q2. split; [exact E2|]. split; [exact G2|]. split; [apply same_shape_trans with q1; assumption|].
  intros i j Hj. destruct S1 as (S1 & _). rewrite S1 in R2. rewrite R2, R1 by exact Hj. ring.
Qed.

Lemma adds_ext h h' f g : (forall ring p i j, nth_error (h_profs h) ring = Some p -> (j < p_bins p)%nat -> f ring i j = g ring i j) -> adds h h' f -> adds h h' g.
Proof.
  intros H (p1 & -> & L1 & A1). exists p1. split; [reflexivity|]. split; [exact L1|]. intros ring p Ep.
  destruct (A1 ring p Ep) as (q1 & E1 & G1 & S1 & R1). exists q1. repeat (split; [assumption|]). intros i j Hj.
  rewrite R1 by exact Hj. rewrite (H ring p i j Ep Hj). reflexivity.
Qed.

(** The halo to be joined into may already have been inserted to: it has the geometry of the one that was split. *)
Lemma halo_joins_spec h0 ws jobs : Forall2 (fun w (j : Halo * list sphere) => worked h0 w (snd j)) ws jobs ->
  forall h f, good_core h0 -> adds h0 h f -> good_core h ->
  exists h', halo_joins h ws = Some h' /\ good_core h' /\ adds h0 h' (fun ring i j => f ring i j + added h0 (concat (map snd jobs)) ring i j).
Proof.
  intros H. induction H as [|w (w0, ss) ws jobs Hw Hrest IH]; intros h f G0 A G; cbn [halo_joins map concat snd].
  - exists h. split; [reflexivity|]. split; [exact G|]. apply adds_ext with (2 := A). intros. unfold added. cbn [flat_map density].
    destruct (ring_rots h0 ring) as [(?, ?)|]; ring.
  - cbn [snd] in Hw. destruct Hw as (Gw & W1 & W2 & W3 & W4 & W5 & W6).
    pose proof A as (profs & Eh & Lh & Ah).
    destruct (halo_join_spec h w G) as (h1 & -> & G1 & A1); [rewrite Eh; assumption ..|exact Gw|rewrite Eh; assumption|rewrite Eh; assumption|].
    destruct (IH h1 (fun ring i j => f ring i j + added h0 ss ring i j) G0) as (h2 & E2 & G2 & A2); [|exact G1|].
    + apply adds_ext with (2 := adds_trans _ _ _ _ _ A A1). intros ring p i j Ep Hj. destruct (W6 ring p Ep) as (q & -> & Hq).
      rewrite Eh. cbn [with_profs h_bins]. rewrite Hq; [reflexivity|]. destruct (gh_prof h0 G0 ring p Ep) as (_ & _ & <- & _). exact Hj.
    + exists h2. split; [exact E2|]. split; [exact G2|]. apply adds_ext with (2 := A2). intros. rewrite added_app. ring.
Qed.

Theorem halo_distribute_spec h own jobs : good_core h -> (0 < h_bins h)%nat -> 0 < h_rMin h < h_rMax h -> Forall (fun j => worker_halo h (fst j)) jobs ->
  exists h', halo_distribute h own jobs = Some h' /\ good_core h' /\ adds h h' (added h (own ++ concat (map snd jobs))).
Proof.
  intros G Hb Hr H. unfold halo_distribute. destruct (halo_work_spec h jobs G Hb Hr H) as (ws & -> & F).
  destruct (halo_inserts_adds h own G) as (h1 & -> & G1 & A1).
  destruct (halo_joins_spec h ws jobs F h1 _ G A1 G1) as (h2 & E2 & G2 & A2).
  exists h2. split; [exact E2|]. split; [exact G2|]. apply adds_ext with (2 := A2). intros. rewrite added_app. reflexivity.
Qed.

(** What GetRhos returns. *)
Lemma get_rhos_adds h h' f ring p i : good_core h -> adds h h' f -> nth_error (h_profs h) ring = Some p -> (i < h_n h)%nat ->
  forall buf, length buf = h_bins h -> exists out, get_rhos h' ring i buf = Some out /\ length out = h_bins h /\
    forall j, (j < h_bins h)%nat -> nth j out 0 = Rmax (h_defaultRho h) (rowsum (p_derivs p) (i * h_bins h) (S j) + f ring i j).
Proof.
  intros G (profs & -> & L & A) Ep Hi buf Hbuf. destruct (A ring p Ep) as (p' & Ep' & G' & (S1 & S2 & _) & R).
  destruct (gh_prof h G ring p Ep) as (_ & Np & Bp & _). unfold get_rhos. unfold rd. cbn [with_profs h_profs h_defaultRho]. rewrite Ep'.
  destruct (ring_retrieve_spec p' i buf G') as (out & -> & Lo & Ho & _); [congruence|lia|].
  eexists. split; [reflexivity|]. rewrite map_length. split; [congruence|]. intros j Hj.
  set (g := fun rho => if Rltb rho (h_defaultRho h) then h_defaultRho h else rho).
  rewrite (nth_indep _ 0 (g 0)) by (rewrite map_length; lia). rewrite map_nth, Ho by lia.
  rewrite S1, R by lia. rewrite Bp. unfold g, Rmax. set (v := rowsum _ _ _ + f ring i j). clearbody v.
  destruct (Rltb_spec v (h_defaultRho h)), (Rle_dec (h_defaultRho h) v); lra.
Qed.
