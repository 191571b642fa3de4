(** * C19: forward and back substitution, SolveVector, SolveMatrix and Invert. *)
From Coq Require Import Lra.
From Verif Require Import GoBase GoBaseFacts RealBase LoopBase LoopFacts MatModel MatSpec MatProofs MatProofs2 MatProofs3 InterpProofs.
Local Open Scope R_scope.

Lemma sum_loop_from a b (f : nat -> R) body :
  (a <= b)%nat -> (forall k x, (a <= k < b)%nat -> body k x = Some (x + f k)) ->
  loop_from a b body 0 = Some (sumf b (fun k => if (k <? a)%nat then 0 else f k)).
Proof.
  intros Hab H.
  destruct (loop_from_inv (fun k x => x = sumf k (fun k => if (k <? a)%nat then 0 else f k)) a b body 0) as (s' & E & Hs).
  - assumption.
  - symmetry. apply sumf_0. intros i Hi. now rewrite (proj2 (Nat.ltb_lt i a)).
  - intros k t Hk ->. rewrite H by assumption. eexists. split; [reflexivity|]. cbn [sumf].
    rewrite (proj2 (Nat.ltb_ge k a)) by lia. reflexivity.
  - rewrite E. now rewrite Hs.
Qed.

(** Second loop of forwardSubst: solves L y = c. *)
Lemma forward_ok n l c : List.length l = (n * n)%nat -> List.length c = n ->
  exists ys, loop n (fun i ys =>
    do sum <- loop i (fun j sum => do a <- rd l (i * n + j)%nat; do y <- rd ys j; Some (sum + a * y)) 0;
    do y <- rd ys i; wr ys i (y - sum)) c = Some ys /\ List.length ys = n /\
    forall i, (i < n)%nat -> sumf i (fun j => mg n l i j * vec ys j) + vec ys i = vec c i.
Proof.
  intros L Lc.
  match goal with |- context [loop n ?B c] => destruct (loop_inv (fun k ys => List.length ys = n /\
    (forall i, (k <= i < n)%nat -> vec ys i = vec c i) /\
    forall i, (i < k)%nat -> sumf i (fun j => mg n l i j * vec ys j) + vec ys i = vec c i) n B c) as (ys & E & Ly & _ & H) end.
  - repeat split; try assumption; intros; lia.
  - intros i ys Hi (Ly & Hr & Hd).
    rewrite (sum_loop i (fun j => mg n l i j * vec ys j)).
    2: { intros k x Hk. rewrite (rd_mg n) by (assumption || lia). rewrite (rd_nth ys k 0) by lia. reflexivity. }
    rewrite (rd_nth ys i 0) by lia.
    destruct (wr_some ys i (nth i ys 0 - (0 + sumf i (fun j => mg n l i j * vec ys j))) 0) as (ys' & E & L' & H); [lia|].
    exists ys'. split; [exact E|].
    assert (Hv : forall j, vec ys' j = if (j =? i)%nat then vec ys i - sumf i (fun j => mg n l i j * vec ys j) else vec ys j).
    { intros j. unfold vec at 1. rewrite H. unfold vec. destruct (j =? i)%nat; [|reflexivity]. lra. }
    split; [lia|]. split.
    + intros j Hj. rewrite Hv. destruct (Nat.eqb_spec j i); [lia|]. apply Hr. lia.
    + intros j Hj. rewrite (sumf_ext j _ (fun k => mg n l j k * vec ys k)).
      2: { intros k Hk. f_equal. rewrite Hv. destruct (Nat.eqb_spec k i); [lia|reflexivity]. }
      rewrite Hv. destruct (Nat.eqb_spec j i) as [->|]; [|apply Hd; lia].
      rewrite Hr by lia. lra.
  - exists ys. auto.
Qed.

(** Row sums of the upper part: diagonal plus strictly upper. *)
Lemma upper_row n l i (x : nat -> R) : (i < n)%nat ->
  sumf n (fun j => upper n (mg n l) i j * x j) = mg n l i i * x i + sumf n (fun j => if (j <? i + 1)%nat then 0 else mg n l i j * x j).
Proof.
  intros Hi.
  rewrite (sumf_ext n _ (fun j => (if (j =? i)%nat then mg n l i i * x i else 0) + (if (j <? i + 1)%nat then 0 else mg n l i j * x j))).
  - rewrite sumf_plus. f_equal. rewrite (sumf_single n i); [now rewrite Nat.eqb_refl|assumption|].
    intros j Hj Hne. destruct (Nat.eqb_spec j i); [lia|reflexivity].
  - intros j Hj. unfold upper. nat_cases; subst; cbn [andb]; try lia; lra.
Qed.

Lemma backSubst_ok n l y : List.length l = (n * n)%nat -> List.length y = n -> (forall i, (i < n)%nat -> mg n l i i <> 0) ->
  exists xs, backSubst n l y = Some xs /\ List.length xs = n /\
    forall i, (i < n)%nat -> sumf n (fun j => upper n (mg n l) i j * vec xs j) = vec y i.
Proof.
  intros L Ly Hd. unfold backSubst.
  match goal with |- context [loop_down n ?B y] => destruct (loop_down_inv (fun k xs => List.length xs = n /\
    (forall i, (i < k)%nat -> vec xs i = vec y i) /\
    forall i, (k <= i < n)%nat -> sumf n (fun j => upper n (mg n l) i j * vec xs j) = vec y i) n B y) as (xs & E & Lx & _ & H) end.
  - repeat split; try assumption; intros; lia.
  - intros i xs Hi (Lx & Hr & Hdone).
    rewrite (sum_loop_from (i + 1) n (fun j => mg n l i j * vec xs j)).
    2: lia.
    2: { intros k x Hk. rewrite (rd_mg n) by (assumption || lia). rewrite (rd_nth xs k 0) by lia. reflexivity. }
    rewrite (rd_nth xs i 0) by lia. rewrite (rd_mg n) by (assumption || lia).
    set (S := sumf n (fun k => if (k <? i + 1)%nat then 0 else mg n l i k * vec xs k)).
    destruct (wr_some xs i ((nth i xs 0 - S) / mg n l i i) 0) as (xs' & E & L' & H); [lia|].
    exists xs'. split; [exact E|].
    assert (Hv : forall j, vec xs' j = if (j =? i)%nat then (vec xs i - S) / mg n l i i else vec xs j).
    { intros j. unfold vec at 1. rewrite H. reflexivity. }
    split; [lia|]. split.
    + intros j Hj. rewrite Hv. destruct (Nat.eqb_spec j i); [lia|]. apply Hr. lia.
    + intros j Hj. rewrite upper_row by lia.
      rewrite (sumf_ext n _ (fun k => if (k <? j + 1)%nat then 0 else mg n l j k * vec xs k)).
      2: { intros k Hk. destruct (Nat.ltb_spec k (j + 1)); [reflexivity|]. f_equal. rewrite Hv. destruct (Nat.eqb_spec k i); [lia|reflexivity]. }
      rewrite Hv. destruct (Nat.eqb_spec j i) as [->|Hne].
      * fold S. rewrite Hr by lia. field. apply Hd. lia.
      * rewrite <- (Hdone j) by lia. rewrite upper_row by lia. reflexivity.
  - exists xs. split; [exact E|]. split; [assumption|]. intros i Hi. apply H. lia.
Qed.

(** Scatter of b: ys[pivot[i]] = b[i] in order, so later writes win. *)
Definition scatter (n : nat) (piv : list nat) (bs ys : list R) : option (list R) :=
  loop n (fun i ys => do p <- rd piv i; do b <- rd bs i; wr ys p b) ys.

Lemma scatter_ok n piv bs ys : List.length piv = n -> List.length bs = n -> List.length ys = n ->
  (forall i, (i < n)%nat -> (nth i piv O < n)%nat) -> exists c, scatter n piv bs ys = Some c /\ List.length c = n.
Proof.
  intros Lp Lb Ly Hp. unfold scatter.
  match goal with |- context [loop n ?B ys] => destruct (loop_inv (fun k ys => List.length ys = n) n B ys) as (c & E & Lc) end.
  - assumption.
  - intros i t Hi Lt. rewrite (rd_nth piv i O) by lia. rewrite (rd_nth bs i 0) by lia.
    destruct (wr_some t (nth i piv O) (nth i bs 0) 0) as (t' & E & L' & _); [rewrite Lt; now apply Hp|].
    exists t'. split; [exact E|lia].
  - exists c. auto.
Qed.

Lemma scatter_id n piv bs ys : List.length piv = n -> List.length bs = n -> List.length ys = n ->
  (forall i, (i < n)%nat -> nth i piv O = i) -> scatter n piv bs ys = Some bs.
Proof.
  intros Lp Lb Ly Hp. unfold scatter.
  match goal with |- context [loop n ?B ys] => destruct (loop_inv (fun k ys => List.length ys = n /\ forall i, (i < k)%nat -> nth i ys 0 = nth i bs 0) n B ys) as (c & E & Lc & H) end.
  - split; [assumption|intros; lia].
  - intros i t Hi (Lt & Ht). rewrite (rd_nth piv i O) by lia. rewrite (rd_nth bs i 0) by lia. rewrite Hp by assumption.
    destruct (wr_some t i (nth i bs 0) 0) as (t' & E & L' & H); [lia|].
    exists t'. split; [exact E|]. split; [lia|]. intros j Hj. rewrite H. destruct (Nat.eqb_spec j i); [now subst|]. apply Ht. lia.
  - rewrite E. f_equal. apply (nth_ext _ _ 0 0); [lia|]. intros i Hi. apply H. lia.
Qed.

(** What SolveVector computes, whatever the pivots: the permuted system with the scattered right-hand side. *)
Lemma luSolveVector_gen n A f bs xs c sg : lu_ok n A f ->
  (forall i j, (i < n)%nat -> (j < n)%nat ->
       A (sg i) j = sumf i (fun l => mg n (lu_vals f) i l * upper n (mg n (lu_vals f)) l j) + upper n (mg n (lu_vals f)) i j) ->
  List.length bs = n -> List.length xs = n ->
  scatter n (lu_pivot f) bs xs = Some c -> List.length c = n ->
  exists x, luSolveVector f bs xs = Some x /\ List.length x = n /\
    forall i, (i < n)%nat -> sumf n (fun j => A (sg i) j * vec x j) = vec c i.
Proof.
  intros (Hn & L & Lp & _ & Hd & Hp & _) Hfac Lb Lx Ec Lc.
  unfold luSolveVector. rewrite Hn, Lb, Lx, Nat.eqb_refl. cbn [negb]. unfold forwardSubst.
  unfold scatter in Ec. rewrite Ec.
  destruct (forward_ok n (lu_vals f) c L Lc) as (ys & Ey & Ly & Hy). rewrite Ey.
  destruct (backSubst_ok n (lu_vals f) ys L Ly Hd) as (x & Ex & Lx' & Hx). rewrite Ex.
  exists x. split; [reflexivity|]. split; [assumption|]. intros i Hi.
  rewrite <- (Hy i Hi).
  rewrite (sumf_ext n _ (fun j => sumf i (fun l => mg n (lu_vals f) i l * (upper n (mg n (lu_vals f)) l j * vec x j)) + upper n (mg n (lu_vals f)) i j * vec x j)).
  - rewrite sumf_plus. f_equal; [|apply Hx; assumption]. rewrite sumf_exchange. apply sumf_ext. intros l Hl.
    rewrite sumf_scal. f_equal. apply Hx. lia.
  - intros j Hj. rewrite Hfac by assumption. rewrite Rmult_plus_distr_r. f_equal.
    rewrite Rmult_comm, <- sumf_scal. apply sumf_ext. intros l Hl. ring.
Qed.

Lemma noSwap_nth n A f : lu_ok n A f -> (noSwap f <-> forall l, (l < n)%nat -> nth l (lu_pivot f) O = l).
Proof.
  intros (Hn & L & Lp & _). unfold noSwap. rewrite Hn. split; intros H k Hk; specialize (H k Hk).
  - now apply nth_error_nth.
  - rewrite <- H at 2. apply nth_error_nth'. lia.
Qed.

Lemma luSolveVector_noswap n A f bs xs : lu_ok n A f -> noSwap f -> List.length bs = n -> List.length xs = n ->
  exists x, luSolveVector f bs xs = Some x /\ List.length x = n /\
    forall i, (i < n)%nat -> sumf n (fun j => A i j * vec x j) = vec bs i.
Proof.
  intros Hf Hns Lb Lx. pose proof Hf as (Hn & L & Lp & _ & _ & Hp & sg & Hsg & _ & Hid & Hfac).
  pose proof (proj1 (noSwap_nth _ _ _ Hf) Hns) as Hns2.
  assert (Hid' : forall i, (i < n)%nat -> sg i = i) by (intros i Hi; rewrite Hid by (try assumption; intros; apply Hns2; lia); auto). clear Hid. rename Hid' into Hid.
  destruct (luSolveVector_gen n A f bs xs bs sg Hf Hfac Lb Lx) as (x & Ex & Lx' & H).
  - now apply scatter_id.
  - assumption.
  - exists x. split; [assumption|]. split; [assumption|]. intros i Hi. rewrite <- (H i Hi). rewrite Hid by assumption. reflexivity.
Qed.

(** The kernel of A is trivial. *)
Lemma lu_injective n A f (z : nat -> R) : lu_ok n A f -> (forall i, (i < n)%nat -> sumf n (fun j => A i j * z j) = 0) -> forall i, (i < n)%nat -> z i = 0.
Proof.
  intros (Hn & L & Lp & _ & Hd & _ & sg & Hsg & _ & _ & Hfac) Hz.
  set (U := upper n (mg n (lu_vals f))) in *.
  assert (Hy : forall i, (i < n)%nat -> sumf n (fun j => U i j * z j) = 0).
  { intros i. induction i as [i IH] using lt_wf_ind. intros Hi.
    pose proof (Hz (sg i) (Hsg i Hi)) as E.
    rewrite (sumf_ext n _ (fun j => sumf i (fun l => mg n (lu_vals f) i l * (U l j * z j)) + U i j * z j)) in E.
    - rewrite sumf_plus, sumf_exchange in E. rewrite sumf_0 in E; [lra|]. intros l Hl. rewrite sumf_scal, IH by lia. ring.
    - intros j Hj. rewrite Hfac by assumption. rewrite Rmult_plus_distr_r. f_equal.
      rewrite Rmult_comm, <- sumf_scal. apply sumf_ext. intros l Hl. ring. }
  assert (Hback : forall d i, (i < n)%nat -> (n - 1 - i = d)%nat -> z i = 0).
  { intros d. induction d as [d IH] using lt_wf_ind. intros i Hi Ed. pose proof (Hy i Hi) as E. unfold U in E. rewrite upper_row in E by assumption.
    rewrite sumf_0, Rplus_0_r in E.
    - apply Rmult_integral in E. destruct E as [E|E]; [|assumption]. elim (Hd i Hi E).
    - intros j Hj. destruct (Nat.ltb_spec j (i + 1)); [reflexivity|]. rewrite (IH (n - 1 - j)%nat ltac:(lia) j Hj eq_refl). ring. }
  intros i Hi. now apply (Hback (n - 1 - i)%nat).
Qed.

(** If a swap happened, one entry of b is lost. *)
Lemma lost_entry n piv : List.length piv = n -> (forall l, (l < n)%nat -> (l <= nth l piv O < n)%nat) ->
  (forall l, (l < n)%nat -> nth l piv O = l) \/
  exists k, (k < nth k piv O < n)%nat /\ forall l, (k < l < n)%nat -> nth l piv O = l.
Proof.
  intros Lp Hp.
  assert (Hgen : forall c, (c <= n)%nat -> (forall l, (n - c <= l < n)%nat -> nth l piv O = l) \/
     exists k, (k < nth k piv O < n)%nat /\ forall l, (k < l < n)%nat -> nth l piv O = l).
  { intros c. induction c as [|c IH]; intros Hc; [left; intros; lia|].
    destruct (IH ltac:(lia)) as [Hall|]; [|now right].
    destruct (Nat.eq_dec (nth (n - S c) piv O) (n - S c)) as [E|E].
    - left. intros l Hl. destruct (Nat.eq_dec l (n - S c)) as [->|]; [assumption|]. apply Hall. lia.
    - right. exists (n - S c)%nat. split.
      + specialize (Hp (n - S c)%nat ltac:(lia)). lia.
      + intros l Hl. apply Hall. lia. }
  destruct (Hgen n (le_n n)) as [H|H]; [left; intros l Hl; apply H; lia|now right].
Qed.

Lemma scatter_lost n piv k (bs : list R) : List.length piv = n -> List.length bs = n ->
  (forall l, (l < n)%nat -> (l <= nth l piv O < n)%nat) ->
  (k < nth k piv O < n)%nat -> (forall l, (k < l < n)%nat -> nth l piv O = l) ->
  (forall i, (i < n)%nat -> i <> k -> nth i bs 0 = 0) ->
  exists c, scatter n piv bs (zeros n) = Some c /\ List.length c = n /\ forall i, (i < n)%nat -> nth i c 0 = 0.
Proof.
  intros Lp Lb Hp Hk Hid Hb. set (q := nth k piv O) in *. unfold scatter.
  match goal with |- context [loop n ?B ?S] => destruct (loop_inv (fun i c => List.length c = n /\
    forall j, (j < n)%nat -> (j <> q \/ i <= k \/ q < i)%nat -> nth j c 0 = 0) n B S) as (c & E & Lc & H) end.
  - split; [apply zeros_length|]. intros. apply zeros_nth.
  - intros i c Hi (Lc & Hc). rewrite (rd_nth piv i O) by lia. rewrite (rd_nth bs i 0) by lia.
    destruct (wr_some c (nth i piv O) (nth i bs 0) 0) as (c' & E & L' & H); [rewrite Lc; apply Hp; lia|].
    exists c'. split; [exact E|]. split; [lia|]. intros j Hj Hcond. rewrite H.
    destruct (Nat.eqb_spec j (nth i piv O)) as [Ej|Ej].
    + destruct (Nat.eq_dec i k) as [->|]; [|now apply Hb]. fold q in Ej. exfalso. lia.
    + apply Hc; [assumption|]. destruct (Nat.eq_dec j q) as [->|]; [right|now left].
      destruct (Nat.le_gt_cases i k); [now left|]. right.
      assert (i <> q) by (intros ->; rewrite Hid in Ej by lia; lia). lia.
  - exists c. split; [exact E|]. split; [assumption|]. intros i Hi. apply H; [assumption|]. right. right. lia.
Qed.

Lemma swap_breaks_solve m n f : shaped m n n -> det n (entry m) <> 0 -> luOf m = Some f -> ~ noSwap f ->
  exists b x, List.length b = n /\ solveVector m b = Some x /\ ~ solves m x b n.
Proof.
  intros Hm HA Ef Hns. destruct (luOf_ok m n Hm HA) as (f' & Ef' & Hf). rewrite Ef in Ef'. injection Ef' as <-.
  pose proof Hf as (Hn & L & Lp & _ & _ & Hp & sg & Hsg & Hsurj & _ & Hfac).
  destruct (lost_entry n (lu_pivot f) Lp Hp) as [Hall|(k & Hk & Hid)].
  { elim Hns. now apply (proj2 (noSwap_nth _ _ _ Hf)). }
  destruct (wr_some (zeros n) k 1 0) as (b & Eb & Lb & Hb); [rewrite zeros_length; lia|]. rewrite zeros_length in Lb.
  destruct (scatter_lost n (lu_pivot f) k b Lp Lb Hp Hk Hid) as (c & Ec & Lc & Hc).
  { intros i Hi Hne. rewrite Hb. destruct (Nat.eqb_spec i k); [lia|]. apply zeros_nth. }
  destruct (luSolveVector_gen n (entry m) f b (zeros n) c sg Hf Hfac Lb (zeros_length n) Ec Lc) as (x & Ex & Lx & Hx).
  exists b, x. split; [assumption|]. split.
  - unfold solveVector. rewrite Ef, Lb. exact Ex.
  - intros (_ & Hs). destruct (Hsurj k ltac:(lia)) as (i & Hi & Ei). specialize (Hx i Hi). rewrite Ei in Hx.
    rewrite (Hs k) in Hx by lia. unfold vec in Hx. rewrite Hc, Hb, Nat.eqb_refl in Hx by assumption. lra.
Qed.

(** ** SolveMatrix and Invert *)
Lemma luSolveMatrix_noswap n A f b x : lu_ok n A f -> noSwap f -> shaped b n n -> shaped x n n ->
  exists r, luSolveMatrix f b x = Some r /\ shaped r n n /\
    forall i c, (i < n)%nat -> (c < n)%nat -> sumf n (fun j => A i j * entry r j c) = entry x i c.
Proof.
  intros Hf Hns (Hb & Wb & Lb & _ & _) (Hx & Wx & Lx & N1 & _). pose proof Hf as (Hn & _).
  unfold luSolveMatrix. rewrite Hb, Wb, Hx, Wx, Hn, Nat.eqb_refl. cbn [negb].
  match goal with |- context [loop n ?B ?S] => destruct (loop_inv (fun k s => List.length (fst s) = (n * n)%nat /\ List.length (snd s) = n /\
    (forall i c, (i < n)%nat -> (k <= c < n)%nat -> mg n (fst s) i c = mg n (vals x) i c) /\
    (forall i c, (i < n)%nat -> (c < k)%nat -> sumf n (fun j => A i j * mg n (fst s) j c) = mg n (vals x) i c)) n B S) as ([xs col] & E & L & Lcol & _ & H) end.
  - cbn [fst snd]. repeat split; try assumption; try (intros; lia). apply zeros_length.
  - intros k [xs col] Hk (L & Lcol & Hr & Hd). cbn [fst snd] in *.
    destruct (loop_inv (fun i c => List.length c = n /\ forall j, (j < i)%nat -> nth j c 0 = mg n xs j k) n
      (fun i col => do a <- rd xs (i * n + k)%nat; wr col i a) col) as (col1 & E1 & L1 & H1).
    { split; [assumption|intros; lia]. }
    { intros i c Hi (Lc & Hc). rewrite (rd_mg n) by assumption.
      destruct (wr_some c i (mg n xs i k) 0) as (c' & E & L' & H); [lia|]. exists c'. split; [exact E|]. split; [lia|].
      intros j Hj. rewrite H. destruct (Nat.eqb_spec j i); [now subst|]. apply Hc. lia. }
    rewrite E1.
    destruct (luSolveVector_noswap n A f col1 col1 Hf Hns L1 L1) as (col2 & E2 & L2 & H2). rewrite E2.
    destruct (loop_inv (fun i t => List.length t = (n * n)%nat /\ forall a c, (a < n)%nat -> (c < n)%nat ->
        mg n t a c = if (c =? k)%nat && (a <? i)%nat then vec col2 a else mg n xs a c) n
      (fun i xs => do a <- rd col2 i; wr xs (i * n + k)%nat a) xs) as (xs1 & E3 & L3 & H3).
    { split; [assumption|]. intros. nat_cases; rewrite ?andb_false_r; reflexivity. }
    { intros i t Hi (Lt & Ht). rewrite (rd_nth col2 i 0) by lia.
      destruct (wr_mg n t i k (nth i col2 0)) as (t' & E & L' & H); try assumption.
      exists t'. split; [exact E|]. split; [assumption|]. intros a c Ha Hc. rewrite H, Ht by assumption.
      nat_cases; subst; cbn [andb]; try reflexivity; lia. }
    rewrite E3. eexists. split; [reflexivity|]. cbn [fst snd]. split; [assumption|]. split; [assumption|]. split.
    + intros i c Hi Hc. rewrite H3 by lia. destruct (Nat.eqb_spec c k); [lia|]. cbn [andb]. apply Hr; lia.
    + intros i c Hi Hc. destruct (Nat.eq_dec c k) as [->|Hne].
      * rewrite (sumf_ext n _ (fun j => A i j * vec col2 j)).
        -- rewrite H2 by assumption. unfold vec. rewrite H1 by assumption. apply Hr; lia.
        -- intros j Hj. rewrite H3 by lia. rewrite Nat.eqb_refl, (proj2 (Nat.ltb_lt j n)) by assumption. reflexivity.
      * rewrite <- (Hd i c) by lia. apply sumf_ext. intros j Hj. rewrite H3 by lia. destruct (Nat.eqb_spec c k); [lia|]. reflexivity.
  - rewrite E. eexists. split; [reflexivity|]. cbn [fst snd] in *. split; [repeat split; cbn [vals width height]; assumption|].
    intros i c Hi Hc. unfold entry. cbn [vals width]. rewrite Wx. apply H; assumption.
Qed.

Lemma invert_noswap m n f : shaped m n n -> det n (entry m) <> 0 -> luOf m = Some f -> noSwap f ->
  exists r, invert m = Some r /\ shaped r n n /\
    (forall i c, (i < n)%nat -> (c < n)%nat -> sumf n (fun j => entry m i j * entry r j c) = delta i c) /\
    (forall i c, (i < n)%nat -> (c < n)%nat -> sumf n (fun j => entry r i j * entry m j c) = delta i c).
Proof.
  intros Hm HA Ef Hns. destruct (luOf_ok m n Hm HA) as (f' & Ef' & Hf). rewrite Ef in Ef'. injection Ef' as <-.
  pose proof Hm as (H1 & W1 & L1 & N1 & N2). pose proof Hf as (Hn & _).
  unfold invert. rewrite Ef, W1, H1, L1. rewrite newMatrix_some by (try assumption; apply zeros_length).
  unfold luInvertAt. cbn [width height vals]. rewrite Hn, Nat.eqb_refl. cbn [negb]. rewrite zeros_length.
  destruct (loop_inv (fun i t => List.length t = (n * n)%nat /\ forall a c, (a < n)%nat -> (c < n)%nat ->
        mg n t a c = if (a =? c)%nat && (a <? i)%nat then 1 else 0) n
      (fun i vs => wr vs (i * n + i)%nat 1) (zeros (n * n))) as (vs & E & L & H).
  { split; [apply zeros_length|]. intros. unfold mg. rewrite zeros_nth. nat_cases; rewrite ?andb_false_r; reflexivity. }
  { intros i t Hi (Lt & Ht). destruct (wr_mg n t i i 1) as (t' & E & L' & H); try assumption.
    exists t'. split; [exact E|]. split; [assumption|]. intros a c Ha Hc. rewrite H, Ht by assumption.
    nat_cases; subst; cbn [andb]; try reflexivity; lia. }
  rewrite E.
  set (I := {| vals := vs; width := n; height := n |}).
  assert (HI : shaped I n n) by (repeat split; assumption).
  destruct (luSolveMatrix_noswap n (entry m) f I I Hf Hns HI HI) as (r & Er & Hr & Hsol). rewrite Er.
  exists r. split; [reflexivity|]. split; [assumption|].
  assert (Hright : forall i c, (i < n)%nat -> (c < n)%nat -> sumf n (fun j => entry m i j * entry r j c) = delta i c).
  { intros i c Hi Hc. rewrite Hsol by assumption. unfold entry, I. cbn [vals width]. unfold mg in H. rewrite H by assumption.
    unfold delta. rewrite (proj2 (Nat.ltb_lt i n)) by assumption. rewrite andb_true_r. reflexivity. }
  split; [exact Hright|]. intros i c Hi Hc.
  apply Rminus_diag_uniq.
  refine (lu_injective n (entry m) f (fun i => sumf n (fun j => entry r i j * entry m j c) - delta i c) Hf _ i Hi).
  intros a Ha.
  rewrite (sumf_ext n _ (fun b => sumf n (fun j => entry m a b * entry r b j * entry m j c) + (-1) * (entry m a b * delta b c))).
  2: { intros b Hb. unfold Rminus. rewrite Rmult_plus_distr_l, <- sumf_scal. f_equal; [apply sumf_ext; intros; ring|ring]. }
  rewrite sumf_plus, sumf_scal, sumf_exchange.
  rewrite (sumf_ext n _ (fun j => delta a j * entry m j c)).
  2: { intros j Hj. rewrite <- (Hright a j) by assumption. rewrite (Rmult_comm (sumf _ _)), <- sumf_scal. apply sumf_ext. intros; ring. }
  rewrite (sumf_single n a); [|assumption|].
  2: { intros j Hj Hne. unfold delta. destruct (Nat.eqb_spec a j); [congruence|ring]. }
  rewrite (sumf_single n c); [|assumption|].
  2: { intros j Hj Hne. unfold delta. destruct (Nat.eqb_spec j c); [congruence|ring]. }
  unfold delta. rewrite !Nat.eqb_refl. ring.
Qed.

(** Matrix.SolveMatrix never looks at b's values. *)
Lemma solveMatrix_ignores_b m n b b' : shaped b n n -> shaped b' n n -> solveMatrix m b = solveMatrix m b'.
Proof.
  intros (H1 & W1 & _) (H2 & W2 & _). unfold solveMatrix, luSolveMatrix. now rewrite H1, W1, H2, W2.
Qed.

Lemma sumf_trunc i n g : (i <= n)%nat -> sumf n (fun l => if (l <? i)%nat then g l else 0) = sumf i g.
Proof.
  intros H. induction H as [|n H IH].
  - apply sumf_ext. intros l Hl. now rewrite (proj2 (Nat.ltb_lt l i)).
  - cbn [sumf]. rewrite IH, (proj2 (Nat.ltb_ge n i)) by lia. lra.
Qed.

(** Upper triangular matrices are never pivoted. *)
Lemma triangular_noswap m n : shaped m n n -> (forall i, (i < n)%nat -> entry m i i <> 0) ->
  (forall i j, (i < n)%nat -> (j < i)%nat -> entry m i j = 0) -> exists f, luOf m = Some f /\ noSwap f.
Proof.
  intros (H1 & W1 & L1 & N1 & _) Hd Hu. unfold luOf. rewrite W1, H1, Nat.eqb_refl. cbn [negb]. unfold factorizeInPlace.
  assert (EA : forall i j, entry m i j = mg n (vals m) i j) by (intros; unfold entry, mg; now rewrite W1).
  destruct (rowScales_ok n (vals m)) as (vv & Ev & Lv & Hv); try assumption.
  { intros i Hi. exists i. rewrite <- EA. auto. }
  rewrite Ev.
  destruct (loop_inv (fun k s => List.length (f_vs s) = (n * n)%nat /\ f_vv s = vv /\ List.length (f_piv s) = n /\
     (forall i j, (i < n)%nat -> (j < n)%nat -> mg n (f_vs s) i j = mg n (vals m) i j) /\ (forall l, (l < k)%nat -> nth l (f_piv s) O = l)) n (factorStep n)
     {| f_vs := vals m; f_vv := vv; f_imax := 0; f_piv := repeat 0%nat n; f_d := 1 |}) as (s & E & Ls & _ & Lp & _ & Hp).
  - cbn [f_vs f_vv f_piv]. repeat split; try assumption; try (intros; lia). apply repeat_length.
  - intros k t Hk (Lt & Evv & Lp & HV & Hp).
    destruct (pivotSearch_ok n k (f_vs t) (f_vv t) (f_imax t)) as (im & Ep & Him & Hpn); try (assumption || congruence).
    { intros i Hi. rewrite Evv. auto. }
    { exists k. split; [lia|]. rewrite HV, <- EA by lia. auto. }
    assert (im = k).
    { destruct (Nat.eq_dec im k); [assumption|]. elim Hpn. rewrite HV, <- EA by lia. apply Hu; lia. }
    subst im. unfold factorStep. rewrite Ep, Nat.eqb_refl. cbn [negb].
    destruct (wr_some (f_piv t) k k O) as (piv1 & Epv & Lpv & Hpv); [lia|]. rewrite Epv.
    rewrite (rd_mg n (f_vs t) k k) by assumption. rewrite (proj2 (Reqb_false _ _) Hpn).
    destruct (eliminate_ok n k (f_vs t)) as (vs2 & Ee & L2 & HV2); try assumption. rewrite Ee.
    eexists. split; [reflexivity|]. cbn [f_vs f_vv f_piv]. repeat split; try (assumption || lia).
    + intros i j Hi Hj. rewrite HV2 by assumption. unfold elim. rewrite !HV by lia.
      destruct (Nat.ltb_spec k i); [|reflexivity].
      assert (Z : mg n (vals m) i k = 0) by (rewrite <- EA; apply Hu; lia). rewrite Z.
      nat_cases; subst; try (rewrite Z); unfold Rdiv; ring.
    + intros l Hl. rewrite Hpv. destruct (Nat.eqb_spec l k); [now symmetry|]. apply Hp. lia.
  - rewrite E. eexists. split; [reflexivity|]. intros k Hk. cbn [lu_n lu_pivot] in *. rewrite <- (Hp k Hk) at 2. apply nth_error_nth'. lia.
Qed.
