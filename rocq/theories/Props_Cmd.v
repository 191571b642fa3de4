(** * C37, C38, C56-C62: ring buffers, grouping by snapshot, coord and tree output, mass and radius. *)
From Coq Require Import Reals Lra Permutation Sorted.
From Verif Require Import GoBase GoBaseFacts ListFacts LoopBase LoopFacts EnvModel CmdModel CmdProofs CmdProofs2 CmdProofs3.
Import List ListNotations.
Local Open Scope nat_scope.

(** ** C37: ring buffers *)
(** A buffer as client code can produce it: Init, then any sequence of Clear and Splashback calls. *)
Inductive buffer {A} (z : A) (mul : A -> A -> A) (n bins : nat) : ring A -> Prop :=
| B_init : buffer z mul n bins (ring_init A z n bins)
| B_clear r r' : buffer z mul n bins r -> ring_clear A z r = Some r' -> buffer z mul n bins r'
| B_splash find phi cs sn dir r r' : buffer z mul n bins r -> (forall i, snd (find i) = true -> fst (find i) <> None) ->
    splashback A find phi cs sn dir mul r = Some r' -> buffer z mul n bins r'.

Lemma buffer_shaped {A} (z : A) mul n bins r : buffer z mul n bins r -> shaped n bins r.
Proof.
  induction 1 as [|r r' H IH E|find phi cs sn dir r r' H IH F E].
  - apply shaped_init.
  - rewrite (clear_init z n bins) in E by assumption. injection E as <-. apply shaped_init.
  - destruct (splash_ok A z find phi cs sn dir mul F n bins r IH) as (r2 & E2 & S2 & _). congruence.
Qed.

Lemma map_some_nth {A} (d : A) (l : list A) idxs : (forall i, In i idxs -> i < length l) ->
  map Some (map (fun i => nth i l d) idxs) = map (nth_error l) idxs.
Proof.
  intros H. rewrite map_map. apply map_ext_in. intros i Hi. symmetry. apply nth_error_nth'. auto.
Qed.

(** OkPlaneCoords and OkPolarCoords never crash and return, in ascending index order, the coordinates of exactly the lines flagged
    Ok, whatever the contents of the scratch slices passed in; the two loops of FilterPoints gather the same points. *)
Theorem C37_exactly_the_valid_points : forall (A : Type) (z : A) mul n bins (r : ring A) (a b c d : list A),
  buffer z mul n bins r ->
  exists idxs xs ys rs ph,
    StronglySorted lt idxs /\
    (forall i, In i idxs <-> nth_error (Oks r) i = Some true) /\
    OkPlaneCoords A r a b = Some (xs, ys) /\ OkPolarCoords A r c d = Some (rs, ph) /\
    filter_gather A r = Some ((xs, ys), (rs, ph)) /\
    map Some xs = map (nth_error (PlaneXs r)) idxs /\ map Some ys = map (nth_error (PlaneYs r)) idxs /\
    map Some rs = map (nth_error (Rs r)) idxs /\ map Some ph = map (nth_error (Phis r)) idxs.
Proof.
  intros A z mul n bins r a b c d B. pose proof (buffer_shaped _ _ _ _ _ B) as S.
  destruct S as (H1 & H2 & H3 & H4 & H5 & H6 & H7 & H8 & H9 & H10 & _).
  set (idxs := sel (Oks r) (length (Oks r))).
  assert (Hb : forall i, In i idxs -> i < n).
  { intros i Hi. apply filter_In in Hi. destruct Hi as [Hi _]. apply in_seq in Hi. lia. }
  exists idxs, (map (fun i => nth i (PlaneXs r) z) idxs), (map (fun i => nth i (PlaneYs r) z) idxs),
         (map (fun i => nth i (Rs r) z) idxs), (map (fun i => nth i (Phis r) z) idxs).
  split; [apply sel_sorted|]. split; [apply sel_in|].
  split; [unfold OkPlaneCoords, ok_coords; apply ok_loop; lia|].
  split; [unfold OkPolarCoords, ok_coords; apply ok_loop; lia|].
  split.
  - unfold filter_gather. rewrite H1, (ok_loop z) by lia. rewrite (ok_loop z) by lia. unfold idxs. rewrite H10, H8. reflexivity.
  - repeat split; apply map_some_nth; intros i Hi; apply Hb in Hi; lia.
Qed.
Print Assumptions C37_exactly_the_valid_points.

(** After Splashback the flags are those of this halo's lines, and the coordinates of a flagged line are those of its radius. *)
Theorem C37_splashback : forall (A : Type) (z : A) mul n bins (r : ring A) find phi cs sn dir,
  buffer z mul n bins r -> (forall i, snd (find i) = true -> fst (find i) <> None) ->
  exists r', splashback A find phi cs sn dir mul r = Some r' /\
    forall i, i < n ->
      nth_error (Oks r') i = Some (snd (find i)) /\
      (snd (find i) = true -> forall rad, fst (find i) = Some rad ->
         nth_error (Rs r') i = Some rad /\ nth_error (Phis r') i = Some (phi i) /\
         nth_error (PlaneXs r') i = Some (mul (cs i) rad) /\ nth_error (PlaneYs r') i = Some (mul (sn i) rad) /\
         nth_error (Xs r') i = Some (mul rad (fst (fst (dir i)))) /\ nth_error (Ys r') i = Some (mul rad (snd (fst (dir i)))) /\
         nth_error (Zs r') i = Some (mul rad (snd (dir i)))).
Proof.
  intros A z mul n bins r find phi cs sn dir B F. pose proof (buffer_shaped _ _ _ _ _ B) as S.
  destruct (splash_ok A z find phi cs sn dir mul F n bins r S) as (r' & E & S' & Sp).
  exists r'. split; [exact E|]. intros i Hi. destruct (Sp i Hi) as [O V].
  destruct S' as (H1 & H2 & H3 & H4 & H5 & H6 & H7 & H8 & H9 & H10 & _).
  split; [rewrite (nth_error_nth' _ false) by lia; now rewrite O|].
  intros Hf rad Er. specialize (V Hf). unfold rad_of in V. rewrite Er in V.
  destruct V as (V1 & V2 & V3 & V4 & V5 & V6 & V7).
  rewrite !(nth_error_nth' _ z) by lia. rewrite V1, V2, V3, V4, V5, V6, V7. repeat split.
Qed.
Print Assumptions C37_splashback.

(** Clear makes a buffer indistinguishable from a new one: no point of an earlier halo survives. *)
Theorem C37_clear : forall (A : Type) (z : A) mul n bins (r : ring A), buffer z mul n bins r ->
  exists r', ring_clear A z r = Some r' /\ r' = ring_init A z n bins /\
    (forall a b, OkPlaneCoords A r' a b = Some ([], [])) /\ (forall a b, OkPolarCoords A r' a b = Some ([], [])).
Proof.
  intros A z mul n bins r B. pose proof (buffer_shaped _ _ _ _ _ B) as S.
  exists (ring_init A z n bins). split; [now apply clear_init|]. split; [reflexivity|].
  assert (E : sel (repeat false n) n = []).
  { unfold sel. apply (proj1 (filter_nil_iff _ _)) || (induction (seq 0 n) as [|i l IH]; [reflexivity|]; cbn; rewrite nth_repeat; exact IH). }
  split; intros a b; [unfold OkPlaneCoords|unfold OkPolarCoords]; unfold ok_coords, ring_init; cbn [Oks PlaneXs PlaneYs Rs Phis];
    rewrite (ok_loop z); rewrite ?repeat_length; try lia; now rewrite E.
Qed.
Print Assumptions C37_clear.

Example C37_nonvacuous :
  let find := fun i => match i with 0 => (Some 7, true) | 1 => (None, false) | 2 => (Some 5, true) | _ => (Some 9, false) end in
  exists r, splashback nat find (fun i => i) (fun _ => 1) (fun _ => 2) (fun _ => (1, 1, 1)) Nat.mul (ring_init nat 0 4 2) = Some r /\
    OkPlaneCoords nat r [8] [] = Some ([7; 5], [14; 10]) /\ OkPolarCoords nat r [] [] = Some ([7; 5], [0; 2]) /\
    ring_clear nat 0 r = Some (ring_init nat 0 4 2) /\ r <> ring_init nat 0 4 2.
Proof. eexists. split; [reflexivity|]. repeat split; discriminate. Qed.

(** ** C38: grouping by snapshot *)
Local Open Scope Z_scope.
(** How Go may enumerate a map's keys. *)
Definition any_order (enum : list Z -> list Z) : Prop := forall l, Permutation (enum l) l.

(** The maps: the keys are the distinct snapshots; each group lists the row numbers with that snapshot in input order, and the IDs
    at those rows; every row is in exactly one group, once. *)
Theorem C38_groups : forall snaps ids, length ids = length snaps ->
  exists sb ib, binBySnap snaps ids = Some (sb, ib) /\
    NoDup (mkeys ib) /\ mkeys sb = mkeys ib /\ (forall s, In s (mkeys ib) <-> In s snaps) /\
    (forall s, StronglySorted lt (mget ib s)) /\
    (forall s i, In i (mget ib s) <-> nth_error snaps i = Some s) /\
    (forall s, map Some (mget sb s) = map (nth_error ids) (mget ib s)) /\
    Permutation (flat_map (mget ib) (mkeys ib)) (seq 0 (length snaps)).
Proof.
  intros snaps ids L. destruct (binBySnap_ok snaps ids) as (sb & ib & E & (N1 & K1 & G1) & (N2 & K2 & G2)); [lia|].
  exists sb, ib. split; [exact E|]. split; [exact N2|].
  assert (Ek : mkeys sb = mkeys ib).
  { clear - E. unfold binBySnap in E. revert E. generalize (length snaps) as k. intros k E.
    assert (forall k sb ib, loop k (fun i st => do snap <- rd snaps i; do id <- rd ids i;
               Some (mappend (fst st) snap id, mappend (snd st) snap i)) (@nil (Z * list Z), @nil (Z * list nat)) = Some (sb, ib) ->
             mkeys sb = mkeys ib) as H; [|now apply (H k)].
    clear. induction k as [|k IH]; intros sb ib E; cbn in E; [injection E as <- <-; reflexivity|].
    destruct (loop k _ _) as [[sb0 ib0]|]; [|discriminate]. specialize (IH _ _ eq_refl).
    destruct (rd snaps k) as [s|]; [|discriminate]. destruct (rd ids k) as [d|]; [|discriminate]. injection E as <- <-. cbn [fst snd].
    assert (forall {T U} (m : gmap T) (m' : gmap U) a b, mkeys m = mkeys m' -> mkeys (mappend m s a) = mkeys (mappend m' s b)) as H.
    { induction m as [|[q l] m IHm]; intros [|[q' l'] m'] a b; cbn; intros Hm; try discriminate; [reflexivity|].
      injection Hm as -> Hm. destruct (s =? q'); cbn; f_equal; [exact Hm|]. now apply IHm. }
    now apply H. }
  split; [exact Ek|].
  assert (Hin : forall s, In s (mkeys ib) <-> In s snaps).
  { intros s. rewrite K2. split.
    - intros (i & Hi & <-). now apply nth_In.
    - intros H. apply (In_nth _ _ 0) in H. exact H. }
  split; [exact Hin|].
  split; [intros s; rewrite G2, map_id; apply filter_sorted, seq_sorted|].
  assert (Hrow : forall s i, In i (mget ib s) <-> nth_error snaps i = Some s).
  { intros s i. rewrite G2, map_id, in_rows_of. split.
    - intros [H <-]. now apply nth_error_nth'.
    - intros H. assert (i < length snaps)%nat by (apply nth_error_Some; congruence). split; [assumption|].
      rewrite (nth_error_nth' snaps 0) in H by assumption. congruence. }
  split; [exact Hrow|].
  split.
  - intros s. rewrite G1, G2, map_id. apply map_some_nth. intros i Hi. apply in_rows_of in Hi. lia.
  - apply NoDup_Permutation.
    + apply NoDup_flat_map'; [exact N2| |].
      * intros s _. rewrite G2, map_id. apply nodup_rows_of.
      * intros s s' i Hs Hs' Hi Hi'. apply Hrow in Hi. apply Hrow in Hi'. congruence.
    + apply seq_NoDup.
    + intros i. rewrite in_flat_map, in_seq. split.
      * intros (s & Hs & Hi). apply Hrow in Hi. assert (i < length snaps)%nat by (apply nth_error_Some; congruence). lia.
      * intros Hi. exists (nth i snaps 0). split; [apply Hin, nth_In; lia|]. apply Hrow. apply nth_error_nth'. lia.
Qed.
Print Assumptions C38_groups.

(** stats groups its coefficient rows the same way. *)
Theorem C38_coefficient_groups : forall (C : Type) snaps ids (coeffs : list C), length ids = length snaps -> length coeffs = length snaps ->
  exists sb cb ib, binCoeffsBySnap snaps ids coeffs = Some (sb, cb, ib) /\
    (forall s, In s (mkeys sb) <-> In s snaps) /\ NoDup (mkeys sb) /\
    (forall s, StronglySorted lt (mget ib s)) /\
    (forall s i, In i (mget ib s) <-> nth_error snaps i = Some s) /\
    (forall s, map Some (mget sb s) = map (nth_error ids) (mget ib s)) /\
    (forall s, map Some (mget cb s) = map (nth_error coeffs) (mget ib s)).
Proof.
  intros C snaps ids coeffs L1 L2. destruct coeffs as [|dc cr] eqn:Ec.
  - assert (snaps = []) as -> by (now apply length_zero_iff_nil). exists [], [], []. cbn. repeat split; try reflexivity; try constructor.
    + intros []. + intros []. + intros []. + intros H. now destruct i.
  - rewrite <- Ec in *.
    destruct (binCoeffs_ok dc snaps ids coeffs) as (sb & cb & ib & E & (N1 & K1 & G1) & (N2 & K2 & G2) & (N3 & K3 & G3)); [lia|lia|].
    exists sb, cb, ib. split; [exact E|].
    split. { intros s. rewrite K1. split; [intros (i & Hi & <-); now apply nth_In|intros H; exact (In_nth _ _ 0 H)]. }
    split; [exact N1|].
    split; [intros s; rewrite G3, map_id; apply filter_sorted, seq_sorted|].
    split.
    { intros s i. rewrite G3, map_id, in_rows_of. split.
      - intros [H <-]. now apply nth_error_nth'.
      - intros H. assert (i < length snaps)%nat by (apply nth_error_Some; congruence). split; [assumption|].
        rewrite (nth_error_nth' snaps 0) in H by assumption. congruence. }
    split; intros s; [rewrite G1|rewrite G2]; rewrite G3, map_id; apply map_some_nth; intros i Hi; apply in_rows_of in Hi; lia.
Qed.
Print Assumptions C38_coefficient_groups.

(** Each snapshot is processed once, in ascending order, whatever order the map enumerates its keys in. *)
Theorem C38_each_snapshot_once : forall snaps ids enum sb ib, any_order enum -> length ids = length snaps ->
  binBySnap snaps ids = Some (sb, ib) ->
  StronglySorted Z.lt (sortInts (enum (mkeys sb))) /\ (forall s, In s (sortInts (enum (mkeys sb))) <-> In s snaps).
Proof.
  intros snaps ids enum sb ib P L E.
  destruct (C38_groups snaps ids L) as (sb' & ib' & E' & N & Ek & K & _). rewrite E in E'. injection E' as <- <-. rewrite Ek in *.
  assert (Q : Permutation (sortInts (enum (mkeys ib))) (mkeys ib)) by (rewrite sortInts_perm; apply P).
  split.
  - assert (NoDup (sortInts (enum (mkeys ib)))) as Nd by (now rewrite Q).
    pose proof (sortInts_sorted (enum (mkeys ib))) as S. revert Nd S. generalize (sortInts (enum (mkeys ib))). clear.
    induction l as [|x l IH]; intros Nd S; [constructor|]. inversion S; subst. inversion Nd; subst.
    constructor; [auto|]. rewrite Forall_forall in *. intros y Hy. specialize (H2 y Hy).
    assert (x <> y) by congruence. lia.
  - intros s. rewrite Q. apply K.
Qed.
Print Assumptions C38_each_snapshot_once.

Lemma sorted_head_min s0 l : StronglySorted Z.le (s0 :: l) -> forall s, In s (s0 :: l) -> s0 <= s.
Proof. intros H s [<-|I]; [lia|]. inversion H; subst. rewrite Forall_forall in *. auto. Qed.

(** Results are written back to the line they came from. [proc hd s rows] is any per-snapshot analysis that, when it succeeds,
    gives each of its rows a result related to that row by [Good hd s]; [out0] is the initial content of the output slots.
    shell mode: row i gets a result for its own coordinates and snapshot; hd is the header of the smallest snapshot in the input. *)
Theorem C38_shell_writes_back : forall (H X Y : Type) (readHd : Z -> res H) (proc : H -> Z -> list X -> res (list Y))
    (Good : H -> Z -> X -> Y -> Prop) enum snaps ids (xs : list X) (out0 out : list Y),
  any_order enum -> (forall hd s rows ys, proc hd s rows = Ok ys -> Forall2 (Good hd s) rows ys) ->
  length ids = length snaps -> length xs = length snaps -> length out0 = length snaps ->
  shell_loop readHd proc enum snaps ids xs out0 = Ok out ->
  length out = length snaps /\
  exists smin hd, In smin snaps /\ (forall s, In s snaps -> smin <= s) /\ readHd smin = Ok hd /\
    forall i s x y, nth_error snaps i = Some s -> nth_error xs i = Some x -> nth_error out i = Some y ->
      (s <> -1 -> Good hd s x y) /\ (s = -1 -> nth_error out0 i = Some y).
Proof.
  intros H X Y readHd proc Good enum snaps ids xs out0 out P G L1 L2 L3 E.
  unfold shell_loop in E. destruct (binBySnap snaps ids) as [[sb ib]|] eqn:Eb; [|discriminate].
  destruct (C38_each_snapshot_once _ _ _ _ _ P L1 Eb) as [_ Hk].
  pose proof (sortInts_sorted (enum (mkeys sb))) as Hs.
  destruct (binBySnap_ok snaps ids) as (sb' & ib' & Eb' & (N1 & K1 & G1) & Kib); [lia|]. rewrite Eb in Eb'. injection Eb' as <- <-.
  assert (Nd : NoDup (sortInts (enum (mkeys sb)))) by (rewrite sortInts_perm, (P (mkeys sb)); exact N1).
  destruct (sortInts (enum (mkeys sb))) as [|s0 rest] eqn:Es; [discriminate|].
  destruct (readHd s0) as [hd| |] eqn:Eh; try discriminate. rewrite <- Es in E, Nd.
  assert (In s0 snaps) as I0 by (apply Hk; now left).
  destruct xs as [|dx xr] eqn:Ex; [destruct snaps; [contradiction|discriminate]|]. rewrite <- Ex in *.
  destruct out0 as [|dy yr] eqn:Ey; [destruct snaps; [contradiction|discriminate]|]. rewrite <- Ey in *.
  assert (W : written X Y dx dy (Good hd) snaps xs [] out0 out0).
  { split; [exact L3|]. intros i Hi. cbn zeta. split; [intros [[] _]|reflexivity]. }
  pose proof (snap_loop_ok X Y dx dy (proc hd) (Good hd) (G hd) snaps xs ib L2 Kib _ [] out0 out0 out Nd W E) as [Lo Wo].
  split; [exact Lo|]. exists s0, hd. split; [exact I0|]. split.
  { intros s Hin. apply (sorted_head_min s0 rest); [assumption|]. now apply Hk. }
  split; [exact Eh|].
  intros i s x y Ei Exi Eyi. assert (i < length snaps)%nat as Hi by (apply nth_error_Some; congruence).
  rewrite (nth_error_nth' snaps 0) in Ei by assumption. rewrite (nth_error_nth' xs dx) in Exi by lia.
  rewrite (nth_error_nth' out dy) in Eyi by lia. injection Ei as Ei. injection Exi as Exi. injection Eyi as Eyi.
  destruct (Wo i Hi) as [Wa Wb]. cbn zeta in Wa, Wb. rewrite Ei, Exi, Eyi in *. split.
  - intros Hne. apply Wa. split; [|assumption]. rewrite Es. apply Hk. rewrite <- Ei. now apply nth_In.
  - intros He. rewrite (nth_error_nth' out0 dy) by lia. f_equal. symmetry. apply Wb. now right.
Qed.
Print Assumptions C38_shell_writes_back.

(** stats mode: the same; nothing of another snapshot is involved. *)
Theorem C38_stats_writes_back : forall (X Y : Type) (proc : Z -> list X -> res (list Y))
    (Good : Z -> X -> Y -> Prop) enum snaps ids (xs : list X) (out0 out : list Y),
  any_order enum -> (forall s rows ys, proc s rows = Ok ys -> Forall2 (Good s) rows ys) ->
  length ids = length snaps -> length xs = length snaps -> length out0 = length snaps ->
  stats_loop proc enum snaps ids xs out0 = Ok out ->
  length out = length snaps /\
  forall i s x y, nth_error snaps i = Some s -> nth_error xs i = Some x -> nth_error out i = Some y ->
    (s <> -1 -> Good s x y) /\ (s = -1 -> nth_error out0 i = Some y).
Proof.
  intros X Y proc Good enum snaps ids xs out0 out P G L1 L2 L3 E.
  destruct snaps as [|s1 sr] eqn:Esn.
  { destruct xs; [|discriminate]. destruct out0; [|discriminate]. cbn in E.
    assert (enum [] = []) as En by (apply Permutation_nil; symmetry; apply P). rewrite En in E. cbn in E. injection E as <-.
    split; [reflexivity|]. intros [|i]; discriminate. }
  rewrite <- Esn in *. unfold stats_loop in E.
  destruct xs as [|dx xr] eqn:Ex; [subst snaps; discriminate|]. rewrite <- Ex in *.
  destruct out0 as [|dy yr] eqn:Ey; [subst snaps; discriminate|]. rewrite <- Ey in *.
  destruct (binCoeffs_ok dx snaps ids xs) as (sb & cb & ib & Eb & (N1 & K1 & G1) & _ & Kib); [lia|lia|]. rewrite Eb in E.
  assert (Nd : NoDup (sortInts (enum (mkeys sb)))) by (rewrite sortInts_perm, (P (mkeys sb)); exact N1).
  assert (W : written X Y dx dy Good snaps xs [] out0 out0).
  { split; [exact L3|]. intros i Hi. cbn zeta. split; [intros [[] _]|reflexivity]. }
  pose proof (snap_loop_ok X Y dx dy proc Good G snaps xs ib L2 Kib _ [] out0 out0 out Nd W E) as [Lo Wo].
  split; [exact Lo|]. intros i s x y Ei Exi Eyi. assert (i < length snaps)%nat as Hi by (apply nth_error_Some; congruence).
  rewrite (nth_error_nth' snaps 0) in Ei by assumption. rewrite (nth_error_nth' xs dx) in Exi by lia.
  rewrite (nth_error_nth' out dy) in Eyi by lia. injection Ei as Ei. injection Exi as Exi. injection Eyi as Eyi.
  destruct (Wo i Hi) as [Wa Wb]. cbn zeta in Wa, Wb. rewrite Ei, Exi, Eyi in *. split.
  - intros Hne. apply Wa. split; [|assumption]. cbn [app]. rewrite sortInts_perm, (P (mkeys sb)). apply K1. exists i. auto.
  - intros He. rewrite (nth_error_nth' out0 dy) by lia. f_equal. symmetry. apply Wb. now right.
Qed.
Print Assumptions C38_stats_writes_back.

(** The order in which Go enumerates the map does not matter, and the bookkeeping itself never crashes or fails. *)
Theorem C38_map_order_is_irrelevant : forall (H X Y : Type) (readHd : Z -> res H) (proc : H -> Z -> list X -> res (list Y))
    enum1 enum2 snaps ids (xs : list X) (out0 : list Y),
  any_order enum1 -> any_order enum2 ->
  shell_loop readHd proc enum1 snaps ids xs out0 = shell_loop readHd proc enum2 snaps ids xs out0 /\
  (forall proc', stats_loop proc' enum1 snaps ids xs out0 = stats_loop proc' enum2 snaps ids xs out0).
Proof.
  intros H X Y readHd proc e1 e2 snaps ids xs out0 P1 P2.
  assert (Q : forall l, sortInts (e1 l) = sortInts (e2 l)) by (intros l; apply sortInts_canonical; now rewrite (P1 l), (P2 l)).
  split.
  - unfold shell_loop. destruct (binBySnap snaps ids) as [[sb ib]|]; [|reflexivity]. now rewrite Q.
  - intros proc'. unfold stats_loop. destruct (binCoeffsBySnap snaps ids xs) as [[[sb cb] ib]|]; [|reflexivity]. now rewrite Q.
Qed.
Print Assumptions C38_map_order_is_irrelevant.

Theorem C38_bookkeeping_never_crashes : forall (X Y : Type) (proc : Z -> list X -> res (list Y)) (Good : Z -> X -> Y -> Prop)
    enum snaps ids (xs : list X) (out0 : list Y),
  (forall s rows ys, proc s rows = Ok ys -> Forall2 (Good s) rows ys) -> (forall s rows, proc s rows <> Panic) ->
  length ids = length snaps -> length xs = length snaps -> length out0 = length snaps ->
  any_order enum -> stats_loop proc enum snaps ids xs out0 <> Panic.
Proof.
  intros X Y proc Good enum snaps ids xs out0 G S L1 L2 L3 P.
  destruct snaps as [|s1 sr] eqn:Esn.
  { cbn. assert (enum [] = []) as En by (apply Permutation_nil; symmetry; apply P). rewrite En. discriminate. }
  rewrite <- Esn in *. unfold stats_loop.
  destruct xs as [|dx xr] eqn:Ex; [subst snaps; discriminate|]. rewrite <- Ex in *.
  destruct out0 as [|dy yr] eqn:Ey; [subst snaps; discriminate|]. rewrite <- Ey in *.
  destruct (binCoeffs_ok dx snaps ids xs) as (sb & cb & ib & Eb & _ & _ & Kib); [lia|lia|]. rewrite Eb.
  apply (snap_loop_safe X Y dx dy proc Good G snaps xs ib L2 Kib S). exact L3.
Qed.
Print Assumptions C38_bookkeeping_never_crashes.

Example C38_nonvacuous :
  any_order (@rev Z) /\
  binBySnap [5; -1; 3; 5] [10; 20; 30; 40] = Some ([(5, [10; 40]); (-1, [20]); (3, [30])], [(5, [0; 3]%nat); (-1, [1%nat]); (3, [2%nat])]) /\
  stats_loop (fun s rows => Ok (map (fun x => s * 100 + x) rows)) (@rev Z) [5; -1; 3; 5] [10; 20; 30; 40] [1; 2; 3; 4] [0; 0; 0; 0]
    = Ok [501; 0; 303; 504] /\
  shell_loop (fun s => Ok s) (fun hd s rows => Ok (map (fun x => hd + s * 100 + x) rows)) (@rev Z) [5; 4; 3; 5] [10; 20; 30; 40] [1; 2; 3; 4]
    [0; 0; 0; 0] = Ok [504; 405; 306; 507].
Proof. split; [intros l; symmetry; apply Permutation_rev|]. repeat split. Qed.

(** ** C56: every row is converted with its own snapshot's cosmology *)
(** What each length unit means in comoving Mpc/h: kpc are thousandths of Mpc, physical lengths grow by 1 + z, and lengths
    without 1/h are multiplied by h. *)
Definition length_units : list (bytes * (bool * bool * bool)) :=  (* name, (kilo, physical, without 1/h) *)
  [(lit "cMpc/h", (false, false, false)); (lit "ckpc/h", (true, false, false));
   (lit "pMpc/h", (false, true, false)); (lit "pkpc/h", (true, true, false));
   (lit "cMpc", (false, false, true)); (lit "ckpc", (true, false, true));
   (lit "pMpc", (false, true, true)); (lit "pkpc", (true, true, true))].
Definition in_cMpc_h (kind : bool * bool * bool) (c : cosmology) (x : R) : R :=
  let '(kilo, phys, noh) := kind in
  (x * (if kilo then / 1000 else 1) * (if phys then 1 + cZ c else 1) * (if noh then cH100 c else 1))%R.

Theorem C56_unit_factors : forall u kind c, In (u, kind) length_units ->
  exists f, UnitConversionFactor u c = Some f /\ forall x, (x * f = in_cMpc_h kind c x)%R.
Proof.
  intros u kind c H. unfold length_units in H. cbn [In] in H.
  repeat (destruct H as [H|H]; [injection H as <- <-; eexists; split; [reflexivity|]; intros x; unfold in_cMpc_h; cbn -[Rmult]; ring|]).
  destruct H.
Qed.
Print Assumptions C56_unit_factors.

(** Unknown units crash the program (radius.go:124), so the configuration must not contain them. *)
Theorem C56_unknown_units_panic : forall u c, (forall kind, ~ In (u, kind) length_units) -> UnitConversionFactor u c = None.
Proof.
  intros u c H. unfold UnitConversionFactor.
  assert (forall n k, In (n, k) length_units -> beq u n = false) as Hn.
  { intros n k Hi. apply beq_false. intros ->. exact (H k Hi). }
  rewrite (Hn _ (false, false, false)) by (cbn; tauto). rewrite (Hn _ (true, false, false)) by (cbn; tauto).
  rewrite (Hn _ (false, true, false)) by (cbn; tauto). rewrite (Hn _ (true, true, false)) by (cbn; tauto).
  rewrite (Hn _ (false, false, true)) by (cbn; tauto). rewrite (Hn _ (true, false, true)) by (cbn; tauto).
  rewrite (Hn _ (false, true, true)) by (cbn; tauto). rewrite (Hn _ (true, true, true)) by (cbn; tauto). reflexivity.
Qed.
Print Assumptions C56_unknown_units_panic.

(** Which unit applies to a column. *)
Inductive column_kind : Type := Position | HaloRadius | Other.
Definition kind_of_name (name : bytes) (k : column_kind) : Prop :=
  match k with
  | Position => In name [lit "X"; lit "Y"; lit "Z"]
  | HaloRadius => In name [lit "R200m"; lit "R200c"; lit "R500c"; lit "Rs"]
  | Other => ~ In name [lit "X"; lit "Y"; lit "Z"; lit "R200m"; lit "R200c"; lit "R500c"; lit "Rs"]
  end.
(** The value of a cell in output units under cosmology c. *)
Definition converted (posKind radKind : bool * bool * bool) (name : bytes) (c : cosmology) (x y : R) : Prop :=
  (kind_of_name name Position /\ y = in_cMpc_h posKind c x) \/
  (kind_of_name name HaloRadius /\ y = in_cMpc_h radKind c x) \/
  (kind_of_name name Other /\ y = x).

Lemma unit_fac u kind c f x : In (u, kind) length_units -> UnitConversionFactor u c = Some f -> (x * f = in_cMpc_h kind c x)%R.
Proof. intros H E. destruct (C56_unit_factors u kind c H) as (g & Eg & Hg). rewrite E in Eg. injection Eg as <-. apply Hg. Qed.

Lemma facrel_converted pu ru pk rk name c f x : In (pu, pk) length_units -> In (ru, rk) length_units ->
  facrel pu ru c name f -> converted pk rk name c x (x * f)%R.
Proof.
  intros Hp Hr F. unfold facrel, col_unit in F.
  destruct (beq name (lit "X")) eqn:E1; [|destruct (beq name (lit "Y")) eqn:E2; [|destruct (beq name (lit "Z")) eqn:E3]]; cbn [orb] in F.
  1-3: left; split; [|now apply (unit_fac pu)]; apply beq_true in E1 || apply beq_true in E2 || apply beq_true in E3; subst; cbn; auto.
  destruct (beq name (lit "R200m")) eqn:E4; [|destruct (beq name (lit "R200c")) eqn:E5;
    [|destruct (beq name (lit "R500c")) eqn:E6; [|destruct (beq name (lit "Rs")) eqn:E7]]]; cbn [orb] in F.
  1-4: right; left; split; [|now apply (unit_fac ru)];
    apply beq_true in E4 || apply beq_true in E5 || apply beq_true in E6 || apply beq_true in E7; subst; cbn; auto.
  right; right. split; [|subst f; ring].
  apply beq_false in E1, E2, E3, E4, E5, E6, E7. unfold kind_of_name. intros Hin. cbn [In] in Hin. intuition congruence.
Qed.

Lemma nth_repeat_lt {T} (v d : T) n k : (k < n)%nat -> nth k (repeat v n) d = v.
Proof. revert k. induction n as [|n IH]; intros [|k] H; cbn; try lia; [reflexivity|]. apply IH. lia. Qed.

(** coord mode: the cells hold the catalogue's values for the row's ID in the row's snapshot (whatever the order Go enumerates the
    snapshots in), converted with the cosmology of the FIRST row's snapshot; rows of snapshot -1 are zero.
    [value s id j] is the catalogue's value number j of halo [id] in snapshot s. *)
Theorem C56_coord_cells : forall readHd readVals (value : Z -> Z -> nat -> R) pu pk ru rk names enum ids snaps cols,
  any_order enum -> In (pu, pk) length_units -> In (ru, rk) length_units ->
  (forall s l vs, readVals s l = Ok vs -> forall j, (j < length names)%nat ->
     length (nth j vs []) = length l /\ forall t, (t < length l)%nat -> nth t (nth j vs []) 0%R = value s (nth t l 0) j) ->
  length ids = length snaps ->
  readHaloCoords readHd readVals pu ru names enum ids snaps = Ok cols -> snaps <> [] ->
  forall i j s id name, nth_error snaps i = Some s -> nth_error ids i = Some id -> nth_error names j = Some name ->
    exists col cell, nth_error cols j = Some col /\ nth_error col i = Some cell /\
      (s = -1 -> cell = 0%R) /\
      (s <> -1 -> exists s0 c, nth_error snaps 0 = Some s0 /\ readHd s0 = Ok c /\ converted pk rk name c (value s id j) cell).
Proof.
  intros readHd readVals value pu pk ru rk names enum ids snaps cols P Hp Hr V L E Hne i j s id name Ei Ed En.
  unfold readHaloCoords in E. destruct snaps as [|s0 sr] eqn:Es; [congruence|]. rewrite <- Es in *.
  destruct (binBySnap_ok snaps ids) as (sb & ib & Eb & K1 & K2); [lia|]. rewrite Eb in E.
  assert (Nd : NoDup ([] ++ enum (mkeys sb))) by (cbn; rewrite (P (mkeys sb)); apply K1).
  assert (W : cells pu ru names [] readHd value snaps ids s0 [] (repeat (repeat 0%R (length ids)) (length names))).
  { split; [apply repeat_length|]. split.
    - intros q Hq. rewrite nth_repeat_lt by assumption. now rewrite repeat_length.
    - intros a b Ha Hb. cbn zeta. split; [intros [[] _]|]. intros _. rewrite nth_repeat_lt by assumption. apply nth_repeat. }
  destruct (coord_loop_ok pu ru names [] readHd readVals value V snaps ids sb ib L K1 K2 s0 _ _ _ _ Nd W E) as (Lc & Lr & C).
  assert (Hi : (i < length snaps)%nat) by (apply nth_error_Some; congruence).
  assert (Hj : (j < length names)%nat) by (apply nth_error_Some; congruence).
  specialize (C i j Hi Hj). cbn zeta in C.
  rewrite (nth_error_nth' snaps 0) in Ei by assumption. injection Ei as Ei.
  rewrite (nth_error_nth' ids 0) in Ed by lia. injection Ed as Ed.
  rewrite (nth_error_nth' names []) in En by assumption. injection En as En.
  rewrite Ei, Ed, En in C. destruct C as [C1 C2].
  exists (nth j cols []), (nth i (nth j cols []) 0%R).
  split; [apply nth_error_nth'; lia|]. split; [apply nth_error_nth'; rewrite Lr; assumption|].
  split; [intros ->; apply C2; now right|]. intros Hs.
  destruct C1 as (c & f & Ec & Ff & Ecell).
  { split; [|assumption]. cbn [app]. rewrite (P (mkeys sb)). apply K1. exists i. auto. }
  exists s0, c. split; [now rewrite Es|]. split; [exact Ec|]. rewrite Ecell. now apply (facrel_converted pu ru).
Qed.
Print Assumptions C56_coord_cells.

(** The full statement, with the row's own cosmology, is false: a halo at redshift 1 printed after a halo at redshift 0, in a
    catalogue whose positions are in physical units, gets the redshift-0 factor; asked for alone it is right. *)
Theorem C104_mixed_snapshots_refuted :
  exists (readHd : Z -> res cosmology) (readVals : Z -> list Z -> res (list (list R))),
    let run ids snaps := readHaloCoords readHd readVals (lit "pMpc/h") (lit "pMpc/h") [lit "X"] (fun l => l) ids snaps in
    readHd 1 = Ok {| cZ := 1; cH100 := 7 / 10 |} /\
    (forall s id, readVals s [id] = Ok [[10%R]]) /\
    run [7] [1] = Ok [[20%R]] /\ run [6; 7] [2; 1] = Ok [[10%R; 10%R]].
Proof.
  exists (fun s => if s =? 1 then Ok {| cZ := 1; cH100 := 7 / 10 |} else Ok {| cZ := 0; cH100 := 7 / 10 |}).
  exists (fun s l => Ok [map (fun _ => 10%R) l]). cbv zeta.
  split; [reflexivity|]. split; [reflexivity|].
  split; cbn -[Rmult Rplus]; repeat f_equal; lra.
Qed.
Print Assumptions C104_mixed_snapshots_refuted.

(** shell mode: the background density given to a halo depends on the other rows, through the header of the smallest snapshot:
    the same halo, at redshift 0, gets an eight times smaller background when a redshift-1 row is in the input. *)
Theorem C104_shell_background_refuted :
  exists (readHd : Z -> res cosmo_header),
    let proc hd (s : Z) rows := Ok (map (default_rho 1 1 1 1 hd) rows) in
    let run snaps rows := shell_loop readHd proc (fun l => l) snaps (map (fun _ => 0) snaps) rows (map (fun _ => 0%R) snaps) in
    exists a b, run [2] [1%R] = Ok [a] /\ run [1; 2] [1%R; 1%R] = Ok [b; b] /\ (a = 8 * b)%R /\ (0 < b)%R.
Proof.
  set (h0 := {| hZ := 0; hOmegaM := 3 / 10; hOmegaL := 7 / 10; hH100 := 7 / 10 |}).
  set (h1 := {| hZ := 1; hOmegaM := 3 / 10; hOmegaL := 7 / 10; hH100 := 7 / 10 |}).
  exists (fun s => if s =? 1 then Ok h1 else Ok h0). cbv zeta.
  exists (default_rho 1 1 1 1 h0 1%R), (default_rho 1 1 1 1 h1 1%R).
  split; [reflexivity|]. split; [reflexivity|].
  unfold default_rho, RhoAverage. cbv zeta. unfold h0, h1. cbn [hZ hOmegaM hOmegaL hH100].
  assert (Q : (0 < RhoCritical (7 / 10 * 100) (3 / 10) (7 / 10) 0)%R) by (apply rho_crit_pos; lra).
  set (q := RhoCritical (7 / 10 * 100) (3 / 10) (7 / 10) 0) in *. clearbody q. pose proof PI_RGT_0.
  split; [field; lra|].
  apply Rmult_lt_0_compat; [|lra]. apply Rdiv_lt_0_compat; [|lra]. apply Rdiv_lt_0_compat; lra.
Qed.
Print Assumptions C104_shell_background_refuted.

(** It holds when all snapshots have the same cosmology and redshift, in particular for a single snapshot. *)
Theorem C56_single_snapshot : forall readHd readVals (value : Z -> Z -> nat -> R) pu pk ru rk names enum ids snaps cols s0,
  any_order enum -> In (pu, pk) length_units -> In (ru, rk) length_units ->
  (forall s l vs, readVals s l = Ok vs -> forall j, (j < length names)%nat ->
     length (nth j vs []) = length l /\ forall t, (t < length l)%nat -> nth t (nth j vs []) 0%R = value s (nth t l 0) j) ->
  length ids = length snaps -> Forall (eq s0) snaps -> s0 <> -1 ->
  readHaloCoords readHd readVals pu ru names enum ids snaps = Ok cols ->
  forall i j s id name, nth_error snaps i = Some s -> nth_error ids i = Some id -> nth_error names j = Some name ->
    exists col cell c, nth_error cols j = Some col /\ nth_error col i = Some cell /\ readHd s = Ok c /\
      converted pk rk name c (value s id j) cell.
Proof.
  intros readHd readVals value pu pk ru rk names enum ids snaps cols s0 P Hp Hr V L F Hs E i j s id name Ei Ed En.
  assert (snaps <> []) as Hne by (intros ->; now destruct i).
  destruct (C56_coord_cells readHd readVals value pu pk ru rk names enum ids snaps cols P Hp Hr V L E Hne i j s id name Ei Ed En)
    as (col & cell & E1 & E2 & _ & H).
  rewrite Forall_forall in F. assert (s0 = s) as <- by (apply F; exact (nth_error_In _ _ Ei)).
  destruct (H Hs) as (s1 & c & E3 & E4 & E5). assert (s0 = s1) as <- by (apply F; exact (nth_error_In _ _ E3)).
  exists col, cell, c. auto.
Qed.
Print Assumptions C56_single_snapshot.

Example C56_nonvacuous :
  readHaloCoords (fun _ => Ok {| cZ := 1; cH100 := 1 / 2 |})
    (fun s l => Ok [map (fun _ => 10%R) l; map (fun id => IZR id) l]) (lit "pMpc") (lit "cMpc/h") [lit "X"; lit "N"] (@rev Z) [6; 7; 8] [2; -1; 1]
  = Ok [[10 * ((1 + 1) * (1 / 2)); 0; 10 * ((1 + 1) * (1 / 2))]; [6; 0; 8]]%R.
Proof. reflexivity. Qed.

(** ** C57: coord prints the requested columns in the requested order *)
(** When the integer columns are requested before the others (as in the default and example configurations). *)
Theorem C57_integers_first_partial : forall (T : Type) (id snap : T) a b cols, length cols = (a + b)%nat ->
  coord_table id snap (repeat true a ++ repeat false b) cols = Some (id :: snap :: cols).
Proof. intros. now apply table_sorted. Qed.
Print Assumptions C57_integers_first_partial.

(** In general the column order passed to FormatCols is the inverse of the one it needs: with Values = X, Y, N (N an integer),
    the columns printed under the headings X, Y, N are Y, N, X. *)
Theorem C57_column_order_refuted : exists ints cols,
  coord_table "id"%string "snap"%string ints cols = Some ["id"; "snap"; "Y"; "N"; "X"]%string /\ cols = ["X"; "Y"; "N"]%string /\
  ints = [false; false; true].
Proof. exists [false; false; true], ["X"; "Y"; "N"]%string. repeat split. Qed.
Print Assumptions C57_column_order_refuted.

Example C57_nonvacuous : coord_table 100 101 [true; true; false; false; false]%nat [1; 2; 3; 4; 5]
  = Some [100; 101; 1; 2; 3; 4; 5] /\ [true; true; false; false; false] = repeat true 2 ++ repeat false 3.
Proof. split; reflexivity. Qed.

(** ** C58: values accepted by coord's validation can be printed *)
Lemma findString_some x xs : In x xs -> exists j, findString x xs = Some j /\ (j < length xs)%nat.
Proof.
  induction xs as [|y r IH]; [intros []|]. cbn. destruct (beq y x) eqn:E; [exists O; split; [reflexivity|lia]|].
  apply beq_false in E. intros [->|H]; [congruence|]. destruct (IH H) as (j & -> & Hj). exists (S j). split; [reflexivity|lia].
Qed.
Lemma findString_none x xs : ~ In x xs -> findString x xs = None.
Proof.
  induction xs as [|y r IH]; [reflexivity|]. cbn. intros H. destruct (beq y x) eqn:E; [apply beq_true in E; tauto|].
  rewrite IH by tauto. reflexivity.
Qed.

(** Provided every requested value other than R200m, R200c and R500c is a configured column. *)
Theorem C58_accepted_values_partial : forall hnames comments values,
  length comments = length hnames ->
  (forall v, In v values -> In v hnames \/ In v [lit "R200m"; lit "R200c"; lit "R500c"]) ->
  coord_names hnames comments values <> Panic.
Proof.
  intros hnames comments values L H. unfold coord_names. destruct (coord_validate hnames values); [|discriminate].
  assert (exists ints, classify hnames comments values = Some ints) as [ints ->].
  { induction values as [|v vs IH]; [eexists; reflexivity|]. cbn [classify].
    assert (exists b, value_is_int hnames comments v = Some b) as [b ->].
    { unfold value_is_int. destruct (_ || _) eqn:E; [eexists; reflexivity|].
      destruct (H v (or_introl eq_refl)) as [Hi|Hi].
      - destruct (findString_some v hnames Hi) as (j & -> & Hj).
        destruct (nth_error comments j) as [c|] eqn:Ec; [unfold rd; rewrite Ec; eexists; reflexivity|].
        apply nth_error_None in Ec. lia.
      - exfalso. cbn in Hi. destruct Hi as [<-|[<-|[<-|[]]]]; discriminate. }
    destruct IH as [r ->]; [intros; apply H; now right|]. eexists; reflexivity. }
  assert (comment_lookups hnames comments values = Some tt) as ->; [|discriminate].
  clear ints. induction values as [|v vs IH]; [reflexivity|]. cbn [comment_lookups].
  specialize (IH (fun u Hu => H u (or_intror Hu))).
  destruct (_ || _) eqn:E; [exact IH|].
  destruct (H v (or_introl eq_refl)) as [Hi|Hi].
  - destruct (findString_some v hnames Hi) as (j & -> & Hj).
    destruct (nth_error comments j) as [c|] eqn:Ec; [unfold rd; rewrite Ec; exact IH|]. apply nth_error_None in Ec. lia.
  - exfalso. cbn in Hi. destruct Hi as [<-|[<-|[<-|[]]]]; discriminate.
Qed.
Print Assumptions C58_accepted_values_partial.

(** R2500c is offered whenever M2500c is a column, but asking for it crashes while the heading is made. *)
Theorem C58_R2500c_refuted : exists hnames comments, length comments = length hnames /\
  coord_validate hnames [lit "R2500c"] = true /\ coord_names hnames comments [lit "R2500c"] = Panic.
Proof. exists [lit "ID"; lit "M2500c"], [lit "int"; lit "Msun/h"]. repeat split. Qed.
Print Assumptions C58_R2500c_refuted.

Example C58_nonvacuous : coord_names [lit "ID"; lit "X"; lit "M200m"] [lit "int"; lit "cMpc/h"; lit ""] [lit "X"; lit "R200m"; lit "ID"]
  = Ok [false; false; true].
Proof. reflexivity. Qed.

(** ** C59: placeholder rows *)
(** stats mode passes rows of snapshot -1 through with their initial values if the first row is not one of them... *)
Theorem C59_stats_placeholders_partial : forall (X Y : Type) cat (proc : Z -> list X -> res (list Y)) (Good : Z -> X -> Y -> Prop)
    enum snaps ids (xs : list X) (out0 out : list Y),
  any_order enum -> (forall s rows ys, proc s rows = Ok ys -> Forall2 (Good s) rows ys) ->
  length ids = length snaps -> length xs = length snaps -> length out0 = length snaps ->
  stats_run cat proc enum snaps ids xs out0 = Ok out ->
  forall i y, nth_error snaps i = Some (-1) -> nth_error out i = Some y -> nth_error out0 i = Some y.
Proof.
  intros X Y cat proc Good enum snaps ids xs out0 out P G L1 L2 L3 E i y Es Ey.
  assert (stats_loop proc enum snaps ids xs out0 = Ok out) as E'.
  { unfold stats_run in E. destruct snaps; [discriminate|]. destruct (particle_catalog cat z 0); [exact E|discriminate]. }
  destruct (C38_stats_writes_back X Y proc Good enum snaps ids xs out0 out P G L1 L2 L3 E') as [_ H].
  assert (exists x, nth_error xs i = Some x) as [x Ex].
  { destruct (nth_error xs i) eqn:Ex; [eauto|]. apply nth_error_None in Ex. assert (i < length snaps)%nat by (apply nth_error_Some; congruence). lia. }
  now apply (H i (-1) x y Es Ex Ey).
Qed.
Print Assumptions C59_stats_placeholders_partial.

(** ... and crashes if it is, ... *)
Theorem C59_stats_first_row_refuted : forall (X Y : Type) cat (proc : Z -> list X -> res (list Y)) enum snaps ids (xs : list X) (out0 : list Y),
  0 <= c_snapMin cat -> nth_error snaps 0 = Some (-1) -> stats_run cat proc enum snaps ids xs out0 = Panic.
Proof.
  intros X Y cat proc enum snaps ids xs out0 H E. destruct snaps as [|s l]; [discriminate|]. injection E as ->.
  unfold stats_run, particle_catalog. now rewrite (proj2 (Z.ltb_lt _ _)) by lia.
Qed.
Print Assumptions C59_stats_first_row_refuted.

(** ... while shell mode crashes on every input that contains a placeholder row. *)
Theorem C59_shell_refuted : forall (H X Y : Type) cat (hdr : bytes -> res H) (proc : H -> Z -> list X -> res (list Y)) enum snaps ids
    (xs : list X) (out0 : list Y),
  0 <= c_snapMin cat -> any_order enum -> length ids = length snaps ->
  In (-1) snaps -> (forall s, In s snaps -> -1 <= s) ->
  shell_run cat hdr proc enum snaps ids xs out0 = Panic.
Proof.
  intros H X Y cat hdr proc enum snaps ids xs out0 Hm P L I Hb. unfold shell_run.
  destruct snaps as [|s1 l] eqn:Es; [contradiction|]. rewrite <- Es in *.
  destruct (particle_catalog cat s1 0); [|reflexivity]. unfold shell_loop.
  destruct (C38_groups snaps ids L) as (sb & ib & E & _). rewrite E.
  destruct (C38_each_snapshot_once _ _ _ _ _ P L E) as [_ K].
  pose proof (sortInts_sorted (enum (mkeys sb))) as S.
  destruct (sortInts (enum (mkeys sb))) as [|s0 r] eqn:E0; [reflexivity|].
  assert (s0 = -1) as ->.
  { assert (s0 <= -1) by (apply (sorted_head_min s0 r); [assumption|now apply K]).
    assert (-1 <= s0) by (apply Hb, K; now left). lia. }
  unfold read_hd, particle_catalog. now rewrite (proj2 (Z.ltb_lt _ _)) by lia.
Qed.
Print Assumptions C59_shell_refuted.

Example C59_nonvacuous :
  let cat := {| c_snapMin := 0; c_names := [[lit "a"]; [lit "b"]] |} in
  stats_run cat (fun s rows => Ok (map (Z.add (100 * s)) rows)) (fun l => l) [1; -1; 0] [5; -1; 6] [1; 2; 3] [0; 0; 0] = Ok [101; 0; 3] /\
  shell_run cat (fun f => Ok f) (fun hd s rows => Ok (map (Z.add (100 * s)) rows)) (fun l => l) [1; -1; 0] [5; -1; 6] [1; 2; 3] [0; 0; 0] = Panic /\
  shell_run cat (fun f => Ok f) (fun hd s rows => Ok (map (Z.add (100 * s)) rows)) (fun l => l) [1; 0] [5; 6] [1; 3] [0; 0] = Ok [101; 3].
Proof. repeat split. Qed.

(** ** C60: tree mode's output *)
(** The lines printed are exactly the (ID, snapshot) pairs of the histories, in order, whose snapshot is in [SnapMin, SnapMax] and,
    if SelectSnaps is given (without repetitions), in SelectSnaps; the separators put between histories are never printed when
    SnapMin >= 0. *)
Theorem C60_tree_output : forall snapMin snapMax select (sets : list (list (Z * Z))),
  0 <= snapMin -> NoDup select ->
  exists keep : Z * Z -> bool,
    tree_lines snapMin snapMax select (join_sets sets) = filter keep (concat sets) /\
    forall id snap, keep (id, snap) = true <-> snapMin <= snap <= snapMax /\ (select = [] \/ In snap select).
Proof.
  intros lo hi select sets Hlo N. destruct select as [|x l] eqn:Es.
  - exists (fun r => (lo <=? snd r) && (snd r <=? hi)). split.
    + rewrite tree_lines_filter by reflexivity. apply filter_join_sets. cbn. now rewrite (proj2 (Z.leb_gt _ _)) by lia.
    + intros id s. cbn. rewrite andb_true_iff, !Z.leb_le. tauto.
  - rewrite <- Es in *. assert (select <> []) by (rewrite Es; discriminate).
    exists (fun r => (lo <=? snd r) && (snd r <=? hi) && existsb (Z.eqb (snd r)) select). split.
    + rewrite tree_lines_select by assumption. apply filter_join_sets. cbn. now rewrite (proj2 (Z.leb_gt _ _)) by lia.
    + intros id s. cbn [snd]. rewrite !andb_true_iff, !Z.leb_le, existsb_exists. split.
      * intros [H1 (y & Hy & Ey)]. apply Z.eqb_eq in Ey. subst. tauto.
      * intros [H1 [H2|H2]]; [contradiction|]. split; [assumption|]. exists s. split; [assumption|apply Z.eqb_refl].
Qed.
Print Assumptions C60_tree_output.

(** Repetitions in SelectSnaps print the line that many times. *)
Theorem C60_repeated_selection : exists rows, tree_lines 0 10 [5; 5] rows = rows ++ rows /\ rows <> [].
Proof. exists [(1, 5)]. split; [reflexivity|discriminate]. Qed.
Print Assumptions C60_repeated_selection.

Example C60_nonvacuous :
  tree_lines 2 9 [3; 9] (join_sets [[(7, 3); (8, 4)]; [(1, 9); (2, 10)]]) = [(7, 3); (1, 9)] /\
  join_sets [[(7, 3); (8, 4)]; [(1, 9); (2, 10)]] = [(7, 3); (8, 4); (-1, -1); (1, 9); (2, 10)].
Proof. split; reflexivity. Qed.

(** ** C61: masses and radii *)
Local Open Scope R_scope.
(** Radius then Mass, and Mass then Radius, give back what they were given, for every definition, cosmology and list. *)
Theorem C61_radius_mass_inverse : forall d c, physical c ->
  (forall ms, Forall (fun m => 0 <= m) ms -> Mass d c (Radius d c ms) = ms) /\
  (forall rs, Forall (fun r => 0 <= r) rs -> Radius d c (Mass d c rs) = rs).
Proof.
  intros d c P. unfold Mass, Radius. split; intros l F; rewrite map_map; rewrite <- map_id; apply map_ext_Forall;
    apply (Forall_impl _ (fun x H => mass_radius d c x P H)) || apply (Forall_impl _ (fun x H => radius_mass d c x P H)); assumption.
Qed.
Print Assumptions C61_radius_mass_inverse.

(** A sphere of the returned (comoving) radius, taken at the header's redshift, has mean density Delta times the reference density:
    its physical volume times that density is the mass. The densities are those of a flat-space Friedmann universe in which
    H(z)^2 = H0^2 (OmegaM (1+z)^3 + OmegaL), with rho_c = 3 H^2 / 8 pi G and rho_m = OmegaM rho_c(0) (1+z)^3 (matter alone: OmegaM +
    OmegaL = 1 makes rho_c(0) the usual critical density). *)
Definition overdensity (d : rtype) : R := match d with R200c | R200m => 200 | R500c => 500 | R2500c => 2500 end.
Definition hubble2 (c : cosmo_header) (z : R) : R := (100000 / MpcMks) ^ 2 * (hOmegaM c * (1 + z) ^ 3 + hOmegaL c).  (* (km/s/Mpc)^2 in h^2/s^2 *)
Definition rho_c (c : cosmo_header) (z : R) : R := 3 * hubble2 c z / (8 * PI * GMks) * (MpcMks ^ 3 / MSunMks).
Definition reference_density (d : rtype) (c : cosmo_header) : R :=
  match d with
  | R200m => hOmegaM c * rho_c c 0 * (1 + hZ c) ^ 3
  | _ => rho_c c (hZ c)
  end.
Theorem C61_mean_density : forall d c m, physical c -> 0 <= m ->
  let r_physical := radius_of d c m / (1 + hZ c) in
  4 / 3 * PI * r_physical ^ 3 * (overdensity d * reference_density d c) = m.
Proof.
  intros d c m P Hm. cbv zeta. pose proof (mass_radius d c m P Hm) as E. unfold mass_of in E. cbv zeta in E.
  pose proof (threshold_pos d c P) as T.
  assert (Et : threshold d c = overdensity d * reference_density d c).
  { destruct P as (H1 & H2 & H3 & H4). destruct consts_pos as (Q1 & Q2 & Q3). pose proof PI_RGT_0.
    unfold threshold, reference_density, overdensity, RhoAverage. cbv zeta.
    destruct d; rewrite rho_crit_eq by lra; unfold rho_c, hubble2; field; repeat split; lra. }
  rewrite <- Et. rewrite <- E at 2. destruct P as (H1 & H2 & H3 & H4). field. lra.
Qed.
Print Assumptions C61_mean_density.

(** Higher thresholds give smaller radii. *)
Theorem C61_radii_ordered : forall c m, physical c -> 0 <= m ->
  radius_of R2500c c m <= radius_of R500c c m <= radius_of R200c c m.
Proof.
  intros c m P Hm. pose proof P as (H1 & H2 & H3 & H4).
  assert (0 < RhoCritical (hH100 c * 100) (hOmegaM c) (hOmegaL c) (hZ c)) by (apply rho_crit_pos; lra).
  split; apply radius_antitone; try assumption; unfold threshold; cbv zeta; lra.
Qed.
Print Assumptions C61_radii_ordered.

(** Names: parsing is the inverse of printing, but the mass name of R500c is wrong. *)
Theorem C61_names : (forall d, RadiusFromString (RString d) = Some d) /\
  (forall d, d <> R500c -> exists t, RString d = "R"%char :: t /\ MassString d = "M"%char :: t).
Proof. split; intros []; try reflexivity; intros H; try congruence; eexists; split; reflexivity. Qed.
Print Assumptions C61_names.
Theorem C105_mass_name_refuted : MassString R500c = RString R500c.
Proof. reflexivity. Qed.
Print Assumptions C105_mass_name_refuted.

Example C61_nonvacuous : physical {| hZ := 1 / 2; hOmegaM := 3 / 10; hOmegaL := 7 / 10; hH100 := 7 / 10 |} /\
  forall d, 0 < mass_of d {| hZ := 1 / 2; hOmegaM := 3 / 10; hOmegaL := 7 / 10; hH100 := 7 / 10 |} 1.
Proof.
  assert (P : physical {| hZ := 1 / 2; hOmegaM := 3 / 10; hOmegaL := 7 / 10; hH100 := 7 / 10 |}) by (unfold physical; cbn; lra).
  split; [exact P|]. intros d. pose proof (threshold_pos d _ P) as T. unfold mass_of. cbv zeta. cbn [hZ]. pose proof PI_RGT_0.
  apply Rmult_lt_0_compat; [|lra]. apply Rdiv_lt_0_compat; [|lra]. apply Rmult_lt_0_compat; lra.
Qed.

(** ** C62: transpose *)
(** The table helper used to lay out coefficients: for a rectangular table with at least one row, entry (x, y) of the result is
    entry (y, x) of the input, the result is rectangular, and transposing twice is the identity when there is a column. *)
Theorem C62_transpose : forall (A : Type) (z : A) m w, m <> [] -> Forall (fun r => length r = w) m ->
  exists t, transpose z m = Some t /\ length t = w /\ Forall (fun c => length c = length m) t /\
    (forall x y v, (exists r, nth_error m y = Some r /\ nth_error r x = Some v) <-> (exists c, nth_error t x = Some c /\ nth_error c y = Some v)) /\
    ((0 < w)%nat -> transpose z t = Some m).
Proof.
  intros A z m w Hne Hr. destruct (transpose_ok z m w Hne Hr) as (t & E & Lt & Rt & V).
  assert (Hrow : forall y r, nth_error m y = Some r -> length r = w).
  { intros y r H. apply nth_error_In in H. rewrite Forall_forall in Hr. auto. }
  assert (Hcol : forall x c, nth_error t x = Some c -> length c = length m).
  { intros x c H. apply nth_error_In in H. unfold rect in Rt. rewrite Forall_forall in Rt. auto. }
  exists t. split; [exact E|]. split; [exact Lt|]. split; [exact Rt|].
  split.
  - intros x y v. split.
    + intros (r & E1 & E2). assert (y < length m)%nat by (apply nth_error_Some; congruence).
      assert (x < w)%nat by (rewrite <- (Hrow _ _ E1); apply nth_error_Some; congruence).
      exists (nth x t []). split; [apply nth_error_nth'; lia|].
      rewrite (nth_error_nth' (nth x t []) z).
      * rewrite V by assumption. rewrite (nth_error_nth' m []) in E1 by assumption. injection E1 as ->.
        rewrite (nth_error_nth' r z) in E2; [exact E2|]. apply nth_error_Some. congruence.
      * rewrite (Hcol x); [assumption|]. apply nth_error_nth'. lia.
    + intros (c & E1 & E2). assert (x < w)%nat by (rewrite <- Lt; apply nth_error_Some; congruence).
      assert (y < length m)%nat by (rewrite <- (Hcol _ _ E1); apply nth_error_Some; congruence).
      exists (nth y m []). split; [now apply nth_error_nth'|].
      rewrite (nth_error_nth' (nth y m []) z).
      * rewrite <- V by assumption. rewrite (nth_error_nth' t []) in E1 by lia. injection E1 as ->.
        rewrite (nth_error_nth' c z) in E2; [exact E2|]. apply nth_error_Some. congruence.
      * rewrite (Hrow y); [assumption|]. now apply nth_error_nth'.
  - intros Hw. assert (t <> []) as Hnt by (intros ->; cbn in Lt; lia).
    destruct (transpose_ok z t (length m) Hnt Rt) as (u & Eu & Lu & Ru & Vu). rewrite Eu. f_equal.
    apply nth_ext with (d := []) (d' := []); [exact Lu|]. intros y Hy. rewrite Lu in Hy.
    assert (length (nth y u []) = w) as Ly.
    { unfold rect in Ru. rewrite Forall_forall in Ru. rewrite Lt in Ru. apply Ru, nth_In. lia. }
    assert (length (nth y m []) = w) as Lm by (apply (Hrow y); now apply nth_error_nth').
    apply nth_ext with (d := z) (d' := z); [lia|]. intros x Hx. rewrite Ly in Hx.
    rewrite Vu by lia. now apply V.
Qed.
Print Assumptions C62_transpose.

Example C62_nonvacuous : transpose 0%nat [[1; 2; 3]; [4; 5; 6]]%nat = Some [[1; 4]; [2; 5]; [3; 6]]%nat /\
  transpose 0%nat [] = None /\ transpose 0%nat [[1; 2]; [3]]%nat = None.
Proof. repeat split. Qed.
