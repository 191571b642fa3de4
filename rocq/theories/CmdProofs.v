(** * Proofs about the command layer's bookkeeping. *)
From Coq Require Import Reals Lra Permutation Sorted.
From Verif Require Import GoBase GoBaseFacts ListFacts LoopBase LoopFacts CmdModel.
Import List ListNotations.
Local Open Scope nat_scope.

(** ** Selecting flagged entries *)
Definition sel (oks : list bool) (n : nat) : list nat := filter (fun i => nth i oks false) (seq 0 n).

Lemma seq_snoc n : seq 0 (S n) = seq 0 n ++ [n].
Proof. rewrite seq_S. reflexivity. Qed.

Lemma sel_snoc oks n : sel oks (S n) = sel oks n ++ (if nth n oks false then [n] else []).
Proof. unfold sel. rewrite seq_snoc, filter_app. cbn [filter]. now destruct (nth n oks false). Qed.

Lemma ok_loop {A} (d : A) (oks : list bool) (us vs : list A) n : n <= length oks -> n <= length us -> n <= length vs ->
  loop n (fun i (st : list A * list A) =>
    do ok <- rd oks i;
    if ok then do u <- rd us i; do v <- rd vs i; Some (fst st ++ [u], snd st ++ [v])
    else Some st) ([], []) = Some (map (fun i => nth i us d) (sel oks n), map (fun i => nth i vs d) (sel oks n)).
Proof.
  induction n as [|n IH]; intros H1 H2 H3; [reflexivity|].
  cbn [loop]. rewrite IH by lia. rewrite (rd_nth oks n false) by lia.
  rewrite sel_snoc. destruct (nth n oks false).
  - rewrite (rd_nth us n d), (rd_nth vs n d) by lia. cbn [fst snd]. now rewrite !map_app.
  - now rewrite app_nil_r.
Qed.

Lemma sel_in oks i : In i (sel oks (length oks)) <-> nth_error oks i = Some true.
Proof.
  unfold sel. rewrite filter_In, in_seq. split.
  - intros [H E]. rewrite (nth_error_nth' oks false) by lia. now rewrite E.
  - intros E. assert (i < length oks) by (apply nth_error_Some; congruence).
    split; [lia|]. rewrite (nth_error_nth' oks false) in E by assumption. congruence.
Qed.

Lemma seq_sorted a n : StronglySorted lt (seq a n).
Proof.
  revert a. induction n as [|n IH]; intros a; cbn; constructor; [apply IH|].
  apply Forall_forall. intros x Hx. apply in_seq in Hx. lia.
Qed.

Lemma filter_sorted {A} (R : A -> A -> Prop) f l : StronglySorted R l -> StronglySorted R (filter f l).
Proof.
  induction 1 as [|a l Hl IH Ha]; cbn; [constructor|].
  destruct (f a); [|exact IH]. constructor; [exact IH|].
  rewrite Forall_forall in *. intros x Hx. apply filter_In in Hx. apply Ha. tauto.
Qed.

Lemma sel_sorted oks n : StronglySorted lt (sel oks n).
Proof. apply filter_sorted, seq_sorted. Qed.

(** ** Ring buffers: shape *)
Definition shaped {A} (n bins : nat) (r : ring A) : Prop :=
  rN r = n /\ rBins r = bins /\ length (PlaneXs r) = n /\ length (PlaneYs r) = n /\ length (Xs r) = n /\ length (Ys r) = n /\
  length (Zs r) = n /\ length (Rs r) = n /\ length (Phis r) = n /\ length (Oks r) = n /\
  length (profRs r) = bins /\ length (profRhos r) = bins /\ length (smoothRhos r) = bins /\ length (smoothDerivs r) = bins.

Lemma shaped_init {A} (z : A) n bins : shaped n bins (ring_init A z n bins).
Proof. unfold shaped, ring_init. cbn. rewrite !repeat_length. intuition. Qed.

Lemma zero_to_all {B} (z : B) l : zero_to z (length l) l = Some (repeat z (length l)).
Proof.
  unfold zero_to.
  destruct (loop_inv (fun i t => length t = length l /\ forall j, j < i -> nth j t z = z) (length l) (fun i l => wr l i z) l)
    as (l' & E & L & H).
  - split; [reflexivity|]. intros; lia.
  - intros i t Hi [L H]. destruct (wr_some t i z z) as (t' & E & L' & N); [lia|].
    exists t'. split; [exact E|]. split; [lia|].
    intros j Hj. rewrite N. destruct (Nat.eqb_spec j i); [reflexivity|]. apply H. lia.
  - rewrite E. f_equal. apply nth_ext with (d := z) (d' := z); [now rewrite repeat_length|].
    intros k Hk. rewrite H by lia. now rewrite nth_repeat.
Qed.

Lemma clear_init {A} (z : A) n bins r : shaped n bins r -> ring_clear A z r = Some (ring_init A z n bins).
Proof.
  intros (H1 & H2 & H3 & H4 & H5 & H6 & H7 & H8 & H9 & H10 & H11 & H12 & H13 & H14).
  unfold ring_clear. rewrite H1, H2.
  pose proof (zero_to_all z (PlaneXs r)) as E1. rewrite H3 in E1. rewrite E1.
  pose proof (zero_to_all z (PlaneYs r)) as E2. rewrite H4 in E2. rewrite E2.
  pose proof (zero_to_all z (Xs r)) as E3. rewrite H5 in E3. rewrite E3.
  pose proof (zero_to_all z (Ys r)) as E4. rewrite H6 in E4. rewrite E4.
  pose proof (zero_to_all z (Zs r)) as E5. rewrite H7 in E5. rewrite E5.
  pose proof (zero_to_all z (Phis r)) as E6. rewrite H9 in E6. rewrite E6.
  pose proof (zero_to_all z (Rs r)) as E7. rewrite H8 in E7. rewrite E7.
  pose proof (zero_to_all false (Oks r)) as E8. rewrite H10 in E8. rewrite E8.
  pose proof (zero_to_all z (smoothRhos r)) as E9. rewrite H13 in E9. rewrite E9.
  pose proof (zero_to_all z (smoothDerivs r)) as E10. rewrite H14 in E10. rewrite E10.
  pose proof (zero_to_all z (profRs r)) as E11. rewrite H11 in E11. rewrite E11.
  pose proof (zero_to_all z (profRhos r)) as E12. rewrite H12 in E12. rewrite E12.
  reflexivity.
Qed.

Section Splash.
Variable A : Type.
Variable d : A.
Variable find : nat -> option A * bool.
Variables phi cs sn : nat -> A.
Variable dir : nat -> A * A * A.
Variable mul : A -> A -> A.
(** SplashbackRadius is only reached, and Rs[i] only written, when Smooth succeeded; a flag of true comes with a radius. *)
Hypothesis find_ok : forall i, snd (find i) = true -> fst (find i) <> None.

Definition rad_of (i : nat) : A := match fst (find i) with Some v => v | None => d end.

Definition splashed (n : nat) (r : ring A) : Prop :=
  forall i, i < n ->
    nth i (Oks r) false = snd (find i) /\
    (snd (find i) = true ->
       nth i (Rs r) d = rad_of i /\ nth i (Phis r) d = phi i /\
       nth i (PlaneXs r) d = mul (cs i) (rad_of i) /\ nth i (PlaneYs r) d = mul (sn i) (rad_of i) /\
       nth i (Xs r) d = mul (rad_of i) (fst (fst (dir i))) /\ nth i (Ys r) d = mul (rad_of i) (snd (fst (dir i))) /\
       nth i (Zs r) d = mul (rad_of i) (snd (dir i))).

Ltac wrt l i v := let l' := fresh "l" in let E := fresh "E" in let L := fresh "L" in let N := fresh "N" in
  destruct (wr_some l i v d) as (l' & E & L & N); [lia|]; rewrite E.

Lemma splash_step n bins i r : i < n -> shaped n bins r -> splashed i r ->
  exists r', splash_line A find phi cs sn dir mul i r = Some r' /\ shaped n bins r' /\ splashed (S i) r'.
Proof.
  intros Hi Sh Sp. pose proof Sh as Sh0.
  destruct Sh as (H1 & H2 & H3 & H4 & H5 & H6 & H7 & H8 & H9 & H10 & H11 & H12 & H13 & H14).
  pose proof (find_ok i) as Fo.
  unfold splash_line. destruct (find i) as [rad ok] eqn:Ef. cbn [fst snd] in Fo.
  destruct (wr_some (Oks r) i ok false) as (oks & Eo & Lo & No); [lia|]. rewrite Eo.
  destruct ok.
  - destruct rad as [v|]; [|now destruct Fo].
    wrt (Rs r) i v. rewrite (rd_nth l i d) by lia. rewrite N, Nat.eqb_refl.
    wrt (Phis r) i (phi i). wrt (PlaneXs r) i (mul (cs i) v). wrt (PlaneYs r) i (mul (sn i) v).
    destruct (dir i) as [[dx dy] dz] eqn:Ed.
    wrt (Xs r) i (mul v dx). wrt (Ys r) i (mul v dy). wrt (Zs r) i (mul v dz).
    eexists. split; [reflexivity|]. split.
    + unfold shaped. cbn. repeat match goal with |- _ /\ _ => split end; lia.
    + intros j Hj. cbn. rewrite No. destruct (Nat.eqb_spec j i) as [->|Hne].
      * unfold rad_of. rewrite Ef. cbn [fst snd]. split; [reflexivity|]. intros _.
        rewrite N, N0, N1, N2, N3, N4, N5, Nat.eqb_refl, Ed. cbn [fst snd]. repeat split.
      * rewrite N, N0, N1, N2, N3, N4, N5. apply Nat.eqb_neq in Hne. rewrite Hne.
        apply Nat.eqb_neq in Hne. apply Sp. lia.
  - assert (exists rs, match rad with Some v => wr (Rs r) i v | None => Some (Rs r) end = Some rs /\ length rs = n /\
              forall j, j <> i -> nth j rs d = nth j (Rs r) d) as (rs & Er & Lr & Nr).
    { destruct rad as [v|].
      - destruct (wr_some (Rs r) i v d) as (l' & E & L & N); [lia|]. exists l'. split; [exact E|]. split; [lia|].
        intros j Hj. rewrite N. apply Nat.eqb_neq in Hj. now rewrite Hj.
      - exists (Rs r). auto. }
    rewrite Er. eexists. split; [reflexivity|]. split.
    + unfold shaped. cbn. repeat match goal with |- _ /\ _ => split end; lia.
    + intros j Hj. cbn. rewrite No. destruct (Nat.eqb_spec j i) as [->|Hne].
      * rewrite Ef. cbn. split; [reflexivity|discriminate].
      * rewrite Nr by assumption. apply Sp. lia.
Qed.

Lemma splash_ok n bins r : shaped n bins r ->
  exists r', splashback A find phi cs sn dir mul r = Some r' /\ shaped n bins r' /\ splashed n r'.
Proof.
  intros Sh. unfold splashback. pose proof Sh as [En _]. rewrite En.
  apply (loop_inv (fun i t => shaped n bins t /\ splashed i t)).
  - split; [exact Sh|]. intros i Hi. lia.
  - intros i t Hi [S1 S2]. now apply splash_step.
Qed.
End Splash.

(** ** Go maps *)
Local Open Scope Z_scope.
Lemma mget_mappend {T} (m : gmap T) k v k' : mget (mappend m k v) k' = if k' =? k then mget m k ++ [v] else mget m k'.
Proof.
  induction m as [|[k0 l] m IH]; cbn.
  - destruct (Z.eqb_spec k' k); [reflexivity|reflexivity].
  - destruct (Z.eqb_spec k k0) as [->|Hk]; cbn.
    + now destruct (Z.eqb_spec k' k0).
    + rewrite IH. destruct (Z.eqb_spec k' k0) as [->|].
      * destruct (Z.eqb_spec k0 k); [congruence|reflexivity].
      * reflexivity.
Qed.

Lemma in_mkeys_mappend {T} (m : gmap T) k v k' : In k' (mkeys (mappend m k v)) <-> k' = k \/ In k' (mkeys m).
Proof.
  induction m as [|[k0 l] m IH]; cbn; [firstorder|].
  destruct (Z.eqb_spec k k0) as [->|Hk]; cbn; [intuition congruence|].
  fold (mkeys (mappend m k v)) (mkeys m). rewrite IH. intuition congruence.
Qed.

Lemma nodup_mkeys_mappend {T} (m : gmap T) k v : NoDup (mkeys m) -> NoDup (mkeys (mappend m k v)).
Proof.
  induction m as [|[k0 l] m IH]; cbn; intros H; [repeat constructor; easy|].
  inversion H as [|x y Hx Hy]; subst.
  destruct (Z.eqb_spec k k0) as [->|Hk]; cbn; [exact H|].
  constructor; [|now apply IH]. fold (mkeys (mappend m k v)). rewrite in_mkeys_mappend. intros [?|?]; [congruence|contradiction].
Qed.

(** The rows of one snapshot, in input order. *)
Definition rows_of (snaps : list Z) (n : nat) (s : Z) : list nat := filter (fun i => nth i snaps 0 =? s) (seq 0 n).

Lemma rows_of_snoc snaps n s : rows_of snaps (S n) s = rows_of snaps n s ++ (if nth n snaps 0 =? s then [n] else []).
Proof. unfold rows_of. rewrite seq_snoc, filter_app. cbn [filter]. now destruct (nth n snaps 0 =? s). Qed.

Lemma in_rows_of snaps n s i : In i (rows_of snaps n s) <-> (i < n)%nat /\ nth i snaps 0 = s.
Proof. unfold rows_of. rewrite filter_In, in_seq, Z.eqb_eq. intuition lia. Qed.

Lemma nodup_rows_of snaps n s : NoDup (rows_of snaps n s).
Proof. apply NoDup_filter, seq_NoDup. Qed.

Definition keyed {T} (snaps : list Z) (n : nat) (v : nat -> T) (m : gmap T) : Prop :=
  NoDup (mkeys m) /\ (forall s, In s (mkeys m) <-> exists i, (i < n)%nat /\ nth i snaps 0 = s) /\
  forall s, mget m s = map v (rows_of snaps n s).

Lemma keyed_step {T} snaps n (v : nat -> T) m : keyed snaps n v m -> keyed snaps (S n) v (mappend m (nth n snaps 0) (v n)).
Proof.
  intros (N & K & G). split; [now apply nodup_mkeys_mappend|]. split.
  - intros s. rewrite in_mkeys_mappend, K. split.
    + intros [->|(i & Hi & E)]; [exists n|exists i]; split; try lia; auto.
    + intros (i & Hi & E). destruct (Nat.eq_dec i n) as [->|]; [left; congruence|]. right. exists i. split; [lia|assumption].
  - intros s. rewrite mget_mappend, rows_of_snoc, map_app, !G.
    destruct (Z.eqb_spec s (nth n snaps 0)) as [->|Hs].
    + rewrite Z.eqb_refl. reflexivity.
    + destruct (Z.eqb_spec (nth n snaps 0) s); [congruence|]. now rewrite app_nil_r.
Qed.

Lemma keyed_nil {T} snaps (v : nat -> T) : keyed snaps 0 v [].
Proof.
  split; [constructor|]. split; [|reflexivity]. intros s. split; [intros []|]. intros (i & Hi & _). lia.
Qed.

Lemma binBySnap_ok snaps ids : (length snaps <= length ids)%nat ->
  exists sb ib, binBySnap snaps ids = Some (sb, ib) /\
    keyed snaps (length snaps) (fun i => nth i ids 0) sb /\ keyed snaps (length snaps) (fun i => i) ib.
Proof.
  intros Hl. unfold binBySnap.
  destruct (loop_inv (fun i (st : gmap Z * gmap nat) => keyed snaps i (fun i => nth i ids 0) (fst st) /\
                                   keyed snaps i (fun i => i) (snd st)) (length snaps)
              (fun i st => do snap <- rd snaps i; do id <- rd ids i;
                 Some (mappend (fst st) snap id, mappend (snd st) snap i)) ([], [])) as ([sb ib] & E & K1 & K2).
  - split; apply keyed_nil.
  - intros i [sb ib] Hi [K1 K2]. rewrite (rd_nth snaps i 0), (rd_nth ids i 0) by lia. eexists. split; [reflexivity|].
    split; [exact (keyed_step snaps i (fun i => nth i ids 0) sb K1)|exact (keyed_step snaps i (fun i => i) ib K2)].
  - exists sb, ib. auto.
Qed.

Lemma binCoeffs_ok {C} (dc : C) snaps ids coeffs : (length snaps <= length ids)%nat -> (length snaps <= length coeffs)%nat ->
  exists sb cb ib, binCoeffsBySnap snaps ids coeffs = Some (sb, cb, ib) /\
    keyed snaps (length snaps) (fun i => nth i ids 0) sb /\ keyed snaps (length snaps) (fun i => nth i coeffs dc) cb /\
    keyed snaps (length snaps) (fun i => i) ib.
Proof.
  intros Hl Hc. unfold binCoeffsBySnap.
  destruct (loop_inv (fun i (st : gmap Z * gmap C * gmap nat) => keyed snaps i (fun i => nth i ids 0) (fst (fst st)) /\
                                   keyed snaps i (fun i => nth i coeffs dc) (snd (fst st)) /\
                                   keyed snaps i (fun i => i) (snd st)) (length snaps)
              (fun i st => do snap <- rd snaps i; do id <- rd ids i; do c <- rd coeffs i;
                 Some (mappend (fst (fst st)) snap id, mappend (snd (fst st)) snap c, mappend (snd st) snap i)) ([], [], []))
    as ([[sb cb] ib] & E & K1 & K2 & K3).
  - split; [|split]; apply keyed_nil.
  - intros i [[sb cb] ib] Hi (K1 & K2 & K3). rewrite (rd_nth snaps i 0), (rd_nth ids i 0), (rd_nth coeffs i dc) by lia.
    eexists. split; [reflexivity|].
    split; [|split]; [exact (keyed_step snaps i (fun i => nth i ids 0) sb K1)
                     |exact (keyed_step snaps i (fun i => nth i coeffs dc) cb K2)|exact (keyed_step snaps i (fun i => i) ib K3)].
  - exists sb, cb, ib. auto.
Qed.

(** ** sortInts *)
Lemma insertZ_perm x l : Permutation (insertZ x l) (x :: l).
Proof.
  induction l as [|y l IH]; cbn; [reflexivity|]. destruct (x <=? y); [reflexivity|].
  rewrite IH. apply perm_swap.
Qed.
Lemma sortInts_perm l : Permutation (sortInts l) l.
Proof. induction l as [|x l IH]; cbn; [reflexivity|]. fold (sortInts l). rewrite insertZ_perm. now constructor. Qed.
Lemma insertZ_sorted x l : StronglySorted Z.le l -> StronglySorted Z.le (insertZ x l).
Proof.
  induction 1 as [|y l Hl IH Hy]; cbn; [repeat constructor|].
  destruct (Z.leb_spec x y).
  - constructor; [now constructor|]. constructor; [assumption|].
    rewrite Forall_forall in *. intros z Hz. specialize (Hy z Hz). lia.
  - constructor; [exact IH|]. rewrite Forall_forall in *. intros z Hz.
    rewrite (insertZ_perm x l) in Hz. destruct Hz as [<-|Hz]; [lia|auto].
Qed.
Lemma sortInts_sorted l : StronglySorted Z.le (sortInts l).
Proof. induction l as [|x l IH]; cbn; [constructor|]. now apply insertZ_sorted. Qed.

Lemma sorted_perm_unique l1 l2 : StronglySorted Z.le l1 -> StronglySorted Z.le l2 -> Permutation l1 l2 -> l1 = l2.
Proof.
  intros H. revert l2. induction H as [|x l1 H1 IH Hx]; intros l2 H2 P.
  - now apply Permutation_nil in P.
  - destruct H2 as [|y l2 H2 Hy]; [symmetry in P; now apply Permutation_nil in P|].
    assert (x = y) as ->.
    { rewrite Forall_forall in *.
      assert (In y (x :: l1)) as [?|I1] by (rewrite P; now left); [congruence|].
      assert (In x (y :: l2)) as [?|I2] by (rewrite <- P; now left); [congruence|].
      specialize (Hx _ I1). specialize (Hy _ I2). lia. }
    f_equal. apply IH; [assumption|]. now apply Permutation_cons_inv in P.
Qed.

Lemma sortInts_canonical l1 l2 : Permutation l1 l2 -> sortInts l1 = sortInts l2.
Proof.
  intros P. apply sorted_perm_unique; try apply sortInts_sorted. now rewrite !sortInts_perm.
Qed.

(** ** gather and scatter *)
Lemma gather_spec {T} (d : T) xs idxs : (forall i, In i idxs -> (i < length xs)%nat) ->
  gather xs idxs = Some (map (fun i => nth i xs d) idxs).
Proof.
  induction idxs as [|i is IH]; intros H; [reflexivity|]. cbn.
  rewrite (rd_nth xs i d) by (apply H; now left). rewrite IH by (intros; apply H; now right). reflexivity.
Qed.

Lemma scatter_spec {T} (d : T) idxs : forall out rows, NoDup idxs -> (forall i, In i idxs -> (i < length out)%nat) ->
  (length idxs <= length rows)%nat ->
  exists out', scatter out idxs rows = Some out' /\ length out' = length out /\
    (forall j, ~ In j idxs -> nth j out' d = nth j out d) /\
    (forall k, (k < length idxs)%nat -> nth (nth k idxs O) out' d = nth k rows d).
Proof.
  induction idxs as [|i is IH]; intros out rows N H L.
  - exists out. repeat split; auto. cbn. intros; lia.
  - destruct rows as [|r rs]; [cbn in L; lia|].
    cbn. destruct (wr_some out i r d) as (o1 & E & L1 & N1); [apply H; now left|]. rewrite E.
    inversion N as [|x y Hni Hnd]; subst.
    destruct (IH o1 rs Hnd) as (o2 & E2 & L2 & A & B).
    + intros k Hk. rewrite L1. apply H. now right.
    + cbn in L. lia.
    + exists o2. split; [exact E2|]. split; [lia|]. split.
      * intros j Hj. rewrite A by tauto. rewrite N1. destruct (Nat.eqb_spec j i) as [->|]; [tauto|reflexivity].
      * intros [|k] Hk.
        -- rewrite A by assumption. rewrite N1, Nat.eqb_refl. reflexivity.
        -- apply B. lia.
Qed.

Lemma scatter_short {T} (out : list T) idxs rows out' : scatter out idxs rows = Some out' -> (length idxs <= length rows)%nat.
Proof.
  revert out rows. induction idxs as [|i is IH]; intros out rows E; cbn; [lia|].
  destruct rows as [|r rs]; cbn in E; [discriminate|]. destruct (wr out i r); [|discriminate]. apply IH in E. cbn. lia.
Qed.

(** ** The loop over snapshots *)
Section SnapLoop.
Variables X Y : Type.
Variable dx : X.
Variable dy : Y.
Variable proc : Z -> list X -> res (list Y).
Variable Good : Z -> X -> Y -> Prop.
Hypothesis proc_good : forall s rows ys, proc s rows = Ok ys -> Forall2 (Good s) rows ys.
Variable snaps : list Z.
Variable xs : list X.
Variable ib : gmap nat.
Hypothesis len_xs : length xs = length snaps.
Hypothesis ib_ok : keyed snaps (length snaps) (fun i => i) ib.

Lemma ib_rows s : mget ib s = rows_of snaps (length snaps) s.
Proof. destruct ib_ok as (_ & _ & G). rewrite G. now rewrite map_id. Qed.

Definition written (done : list Z) (out0 out : list Y) : Prop :=
  length out = length snaps /\
  forall i, (i < length snaps)%nat ->
    let s := nth i snaps 0 in
    (In s done /\ s <> -1 -> Good s (nth i xs dx) (nth i out dy)) /\
    (~ In s done \/ s = -1 -> nth i out dy = nth i out0 dy).

Lemma snap_loop_ok ks : forall done out0 out out',
  NoDup (done ++ ks) -> written done out0 out ->
  snap_loop proc ib xs ks out = Ok out' -> written (done ++ ks) out0 out'.
Proof.
  induction ks as [|s ks IH]; intros done out0 out out' N W E.
  - cbn in E. injection E as <-. now rewrite app_nil_r.
  - assert (Hns : ~ In s done).
    { intros I. apply NoDup_remove_2 in N. apply N. apply in_or_app. now left. }
    replace (done ++ s :: ks) with ((done ++ [s]) ++ ks) in * by (now rewrite <- app_assoc).
    cbn [snap_loop] in E. destruct (Z.eqb_spec s (-1)) as [->|Hs].
    + apply (IH (done ++ [-1])) with (out := out) (out0 := out0) in E; [exact E|exact N|].
      destruct W as [L W]. split; [exact L|]. intros i Hi. destruct (W i Hi) as [W1 W2]. cbn zeta. split.
      * intros [I1 I2]. apply W1. split; [|assumption]. apply in_app_or in I1. destruct I1 as [?|[?|[]]]; [assumption|congruence].
      * intros [I|I]; [|now apply W2; right]. apply W2. left. intros J. apply I. apply in_or_app. now left.
    + rewrite ib_rows in E. rewrite (gather_spec dx) in E.
      2:{ intros i Hi. apply in_rows_of in Hi. lia. }
      destruct (proc s (map (fun i => nth i xs dx) (rows_of snaps (length snaps) s))) as [ys| |] eqn:Ep; try discriminate.
      pose proof (proc_good _ _ _ Ep) as F. pose proof (Forall2_length _ _ _ F) as Lf. rewrite map_length in Lf.
      destruct W as [L W].
      destruct (scatter_spec dy (rows_of snaps (length snaps) s) out ys) as (o1 & E1 & L1 & A & B).
      { apply nodup_rows_of. } { intros i Hi. apply in_rows_of in Hi. lia. } { lia. }
      rewrite E1 in E. apply (IH (done ++ [s])) with (out := o1) (out0 := out0) in E; [exact E|exact N|].
      split; [lia|]. intros i Hi. cbn zeta. destruct (W i Hi) as [W1 W2]. split.
      * intros [I1 I2]. destruct (Z.eq_dec (nth i snaps 0) s) as [Es|Es].
        -- assert (In i (rows_of snaps (length snaps) s)) as Ir by (now apply in_rows_of).
           apply (In_nth _ _ O) in Ir. destruct Ir as (k & Hk & Ek).
           specialize (B k Hk). rewrite Ek in B. rewrite B, Es, <- Ek.
           assert (forall l ys k, Forall2 (Good s) (map (fun i => nth i xs dx) l) ys -> (k < length l)%nat ->
                     Good s (nth (nth k l O) xs dx) (nth k ys dy)) as HF.
           { clear. induction l as [|a l IHl]; intros ys k F Hk; [cbn in Hk; lia|].
             inversion F; subst. destruct k; [assumption|]. cbn. apply IHl; [assumption|]. cbn in Hk. lia. }
           apply HF; assumption.
        -- rewrite A. 2:{ rewrite in_rows_of. tauto. }
           apply W1. split; [|assumption]. apply in_app_or in I1. destruct I1 as [?|[?|[]]]; [assumption|congruence].
      * intros I. rewrite A.
        -- apply W2. destruct I as [I|I]; [left|now right]. intros J. apply I. apply in_or_app. now left.
        -- rewrite in_rows_of. intros [_ J]. destruct I as [I|I]; [|congruence]. apply I. apply in_or_app. right. now left.
Qed.

Hypothesis proc_safe : forall s rows, proc s rows <> Panic.
Lemma snap_loop_safe ks : forall out, length out = length snaps -> snap_loop proc ib xs ks out <> Panic.
Proof.
  induction ks as [|s ks IH]; intros out L; cbn [snap_loop]; [discriminate|].
  destruct (s =? -1); [now apply IH|]. rewrite ib_rows. rewrite (gather_spec dx).
  2:{ intros i Hi. apply in_rows_of in Hi. lia. }
  destruct (proc s (map (fun i => nth i xs dx) (rows_of snaps (length snaps) s))) as [ys| |] eqn:Ep; [|discriminate|].
  - pose proof (Forall2_length _ _ _ (proc_good _ _ _ Ep)) as Lf. rewrite map_length in Lf.
    destruct (scatter_spec dy (rows_of snaps (length snaps) s) out ys) as (o1 & E1 & L1 & _).
    { apply nodup_rows_of. } { intros i Hi. apply in_rows_of in Hi. lia. } { lia. }
    rewrite E1. apply IH. lia.
  - now apply proc_safe in Ep.
Qed.
End SnapLoop.
