(** * Proofs: PennaCoeffs solves the least-squares problem. *)
From Coq Require Import Lra Lia.
From Verif Require Import GoBase GoBaseFacts RealBase LoopBase LoopFacts MatModel MatSpec MatProofs MatProofs2 FitModel FitSpec FitProofs ShellProofs SavgolProofs2 SmoothProofs.
Import List ListNotations.
Local Open Scope R_scope.

Lemma sumf_sq_zero n f : sumf n (fun i => f i * f i) = 0 -> forall i, (i < n)%nat -> f i = 0.
Proof.
  induction n as [|n IH]; intros H i Hi; [lia|]. cbn [sumf] in H.
  assert (H0 : 0 <= sumf n (fun i => f i * f i)) by (apply sumf_nonneg; intros; nra).
  assert (H1 : 0 <= f n * f n) by nra.
  destruct (Nat.eq_dec i n) as [->|]; [|apply IH; [lra|lia]]. nra.
Qed.

Section LS.
  Variables (N P : nat) (F : nat -> nat -> R) (r : nat -> R).
  Hypothesis Hker : forall v : nat -> R, (forall n, (n < N)%nat -> sumf P (fun m => v m * F m n) = 0) -> forall m, (m < P)%nat -> v m = 0.
  Let G a b := sumf N (fun n => F a n * F b n).

  Lemma gram_posdef : posdef P G.
  Proof.
    split; [intros i j _ _; unfold G; apply sumf_ext; intros; ring|].
    intros v (k & Hk & Hv).
    assert (E : sumf P (fun i => sumf P (fun j => v i * G i j * v j)) = sumf N (fun n => sumf P (fun m => v m * F m n) * sumf P (fun m => v m * F m n))).
    { transitivity (sumf P (fun i => sumf P (fun j => sumf N (fun n => v i * F i n * (v j * F j n))))).
      - apply sumf_ext. intros i Hi. apply sumf_ext. intros j Hj. unfold G.
        rewrite Rmult_assoc, (Rmult_comm _ (v j)), <- Rmult_assoc, <- sumf_scal. apply sumf_ext. intros; ring.
      - transitivity (sumf P (fun i => sumf N (fun n => sumf P (fun j => v i * F i n * (v j * F j n))))).
        { apply sumf_ext. intros i Hi. apply sumf_exchange. }
        rewrite sumf_exchange. apply sumf_ext. intros n Hn.
        set (X := sumf P (fun m => v m * F m n)). transitivity (sumf P (fun i => X * (v i * F i n))).
        { apply sumf_ext. intros i Hi. rewrite sumf_scal. fold X. ring. } now rewrite sumf_scal. }
    rewrite E.
    assert (H0 : 0 <= sumf N (fun n => sumf P (fun m => v m * F m n) * sumf P (fun m => v m * F m n))) by (apply sumf_nonneg; intros; nra).
    destruct (Req_dec (sumf N (fun n => sumf P (fun m => v m * F m n) * sumf P (fun m => v m * F m n))) 0) as [Z|Z]; [|lra].
    exfalso. apply Hv. apply Hker; [|exact Hk]. apply (sumf_sq_zero N (fun n => sumf P (fun m => v m * F m n))). exact Z.
  Qed.

  Variable inv : nat -> nat -> R.
  Hypothesis Hinv : forall i j, (i < P)%nat -> (j < P)%nat -> sumf P (fun k => inv i k * G k j) = delta i j.
  Let c p := sumf N (fun n => r n * sumf P (fun q => F q n * inv q p)).
  Let s (c : nat -> R) n := sumf P (fun m => c m * F m n).

  Lemma c_rhs p : c p = sumf P (fun q => inv q p * sumf N (fun n => r n * F q n)).
  Proof.
    unfold c. transitivity (sumf N (fun n => sumf P (fun q => r n * (F q n * inv q p)))).
    { apply sumf_ext. intros. now rewrite sumf_scal. }
    rewrite sumf_exchange. apply sumf_ext. intros q Hq. rewrite <- sumf_scal. apply sumf_ext. intros; ring.
  Qed.

  Lemma normal a : (a < P)%nat -> sumf N (fun n => s c n * F a n) = sumf N (fun n => r n * F a n).
  Proof.
    intros Ha.
    transitivity (sumf P (fun p => c p * G p a)).
    { unfold s, G. transitivity (sumf N (fun n => sumf P (fun p => c p * (F p n * F a n)))).
      - apply sumf_ext. intros n Hn. rewrite Rmult_comm, <- sumf_scal. apply sumf_ext. intros; ring.
      - rewrite sumf_exchange. apply sumf_ext. intros. now rewrite sumf_scal. }
    set (b := fun q => sumf N (fun n => r n * F q n)).
    transitivity (sumf P (fun p => sumf P (fun q => b q * (inv q p * G p a)))).
    { apply sumf_ext. intros p Hp. rewrite c_rhs, Rmult_comm, <- sumf_scal. apply sumf_ext. intros q Hq. unfold b. ring. }
    rewrite sumf_exchange. transitivity (sumf P (fun q => b q * delta q a)).
    { apply sumf_ext. intros q Hq. rewrite sumf_scal, Hinv by assumption. reflexivity. }
    rewrite (sumf_single _ a); [unfold delta; rewrite Nat.eqb_refl; unfold b; ring|exact Ha|].
    intros i Hi Hn. unfold delta. destruct (Nat.eqb_spec i a); [easy|ring].
  Qed.

  Lemma best c' : sumf N (fun n => (r n - s c' n) * (r n - s c' n)) =
    sumf N (fun n => (r n - s c n) * (r n - s c n)) + sumf N (fun n => (s c n - s c' n) * (s c n - s c' n)).
  Proof.
    assert (X : sumf N (fun n => (r n - s c n) * (s c n - s c' n)) = 0).
    { transitivity (sumf N (fun n => sumf P (fun m => (c m - c' m) * (r n * F m n + - (1) * (s c n * F m n))))).
      - apply sumf_ext. intros n Hn. transitivity ((r n - s c n) * sumf P (fun m => (c m - c' m) * F m n)).
        + f_equal. unfold s at 1 2. unfold Rminus at 1. replace (- sumf P (fun m => c' m * F m n)) with (sumf P (fun m => - (1) * (c' m * F m n))) by (rewrite sumf_scal; ring).
          rewrite <- sumf_plus. apply sumf_ext. intros; ring.
        + rewrite <- sumf_scal. apply sumf_ext. intros; ring.
      - rewrite sumf_exchange. apply sumf_0. intros m Hm. rewrite sumf_scal, sumf_plus, sumf_scal, normal by exact Hm. ring. }
    transitivity (sumf N (fun n => (r n - s c n) * (r n - s c n) + (s c n - s c' n) * (s c n - s c' n) + 2 * ((r n - s c n) * (s c n - s c' n)))).
    { apply sumf_ext. intros; ring. }
    rewrite sumf_plus, sumf_plus, sumf_scal, X. ring.
  Qed.

  Lemma best_unique c' : sumf N (fun n => (r n - s c' n) * (r n - s c' n)) <= sumf N (fun n => (r n - s c n) * (r n - s c n)) ->
    forall m, (m < P)%nat -> c' m = c m.
  Proof.
    intros H. rewrite best in H.
    assert (H0 : 0 <= sumf N (fun n => (s c n - s c' n) * (s c n - s c' n))) by (apply sumf_nonneg; intros i _; apply (Rle_0_sqr (s c i - s c' i))).
    assert (Z : sumf N (fun n => (s c n - s c' n) * (s c n - s c' n)) = 0) by lra.
    pose proof (sumf_sq_zero _ _ Z) as Hz.
    assert (Hd : forall m, (m < P)%nat -> c m - c' m = 0).
    { apply Hker. intros n Hn. rewrite <- (Hz n Hn). unfold s.
      unfold Rminus at 2. replace (- sumf P (fun m => c' m * F m n)) with (sumf P (fun m => - (1) * (c' m * F m n))) by (rewrite sumf_scal; ring).
      rewrite <- sumf_plus. apply sumf_ext. intros; ring. }
    intros m Hm. specialize (Hd m Hm). lra.
  Qed.
End LS.

(** ** The code *)
Lemma bsum_sumf n f : bsum n f = sumf n f.
Proof. induction n as [|n IH]; [reflexivity|]. cbn [bsum sumf]. now rewrite IH. Qed.

Lemma pinv_copy h w (src : list R) : length src = (w * h)%nat ->
  loop w (fun y vs => loop h (fun x vs => do v <- rd src (y * h + x)%nat; wr vs (y * h + x)%nat v) vs) (zeros (w * h)) = Some src.
Proof.
  intros HL.
  match goal with |- loop w ?b ?s = _ => set (body := b); set (s0 := s) end.
  assert (L0 : length s0 = (w * h)%nat) by (unfold s0, zeros; apply repeat_length).
  destruct (loop_inv (fun y vs => length vs = (w * h)%nat /\ forall e, (e < y * h)%nat -> nth e vs 0 = nth e src 0) w body s0) as (vs & E & L & H).
  - split; [exact L0|]. intros; lia.
  - intros y vs Hy (L & H). unfold body.
    destruct (loop_inv (fun x vs => length vs = (w * h)%nat /\ forall e, (e < y * h + x)%nat -> nth e vs 0 = nth e src 0) h
       (fun x vs => do v <- rd src (y * h + x)%nat; wr vs (y * h + x)%nat v) vs) as (vs' & E' & L' & H').
    + split; [exact L|]. intros e He. apply H. lia.
    + intros x vs1 Hx (L1 & H1). rewrite (rd_nth _ _ 0) by nia. destruct (wr_some vs1 (y * h + x) (nth (y * h + x) src 0) 0) as (vs2 & E2 & L2 & Hnth); [nia|].
      rewrite E2. exists vs2. split; [reflexivity|].
      split; [lia|]. intros e He. rewrite Hnth. destruct (Nat.eqb_spec e (y * h + x)); [now subst|]. apply H1. lia.
    + exists vs'. split; [exact E'|]. split; [exact L'|]. intros e He. apply H'. lia.
  - rewrite E. f_equal. apply (nth_ext _ _ 0 0); [lia|]. intros e He. apply H. lia.
Qed.

Lemma residual_sum I J K cs pts : length cs = (I * J * K)%nat ->
  residual (penna_func cs I J K) pts =
  sumf (length pts) (fun n => let '(phi, th, r) := nth n pts (0, 0, 0) in
    (r - sumf (I * J * K) (fun m => nth m cs 0 * pbasis I J m (sin th) (cos th) (sin phi) (cos phi))) *
    (r - sumf (I * J * K) (fun m => nth m cs 0 * pbasis I J m (sin th) (cos th) (sin phi) (cos phi)))).
Proof.
  intros HL. induction pts as [|[[phi th] r] pts IH]; [reflexivity|]. cbn [length]. rewrite sumf_head. cbn [nth residual fold_right].
  rewrite penna_func_sum by lia. rewrite bsum_sumf. f_equal. exact IH.
Qed.

Lemma penna_coeffs_empty B inverse I J K : penna_coeffs B inverse [] I J K = None.
Proof. unfold penna_coeffs. cbn [map length]. unfold newMatrix. reflexivity. Qed.

Definition carts (pts : list (R * R * R)) : list (R * R * R) := map (fun p => let '(phi, th, r) := p in cartesian phi th r) pts.

Lemma penna_coeffs_spec B inverse pts I J K :
  (1 <= B)%nat -> inverts_posdef inverse -> (1 <= I * J * K)%nat ->
  (forall phi th r, In (phi, th, r) pts -> 0 < r /\ 0 < th < PI) ->
  (forall cs, length cs = (I * J * K)%nat -> (forall phi th r, In (phi, th, r) pts -> penna_func cs I J K phi th = Some 0) -> forall m, (m < I * J * K)%nat -> nth m cs 0 = 0) ->
  exists cs, penna_coeffs B inverse (carts pts) I J K = Some cs /\ length cs = (I * J * K)%nat /\
    forall cs', length cs' = (I * J * K)%nat -> cs' <> cs -> residual (penna_func cs I J K) pts < residual (penna_func cs' I J K) pts.
Proof.
  intros HB Hinv HP Hdom Hker. set (P := (I * J * K)%nat) in *. set (N := length pts).
  assert (HN : (1 <= N)%nat).
  { unfold N. destruct pts; [|cbn; lia]. exfalso. specialize (Hker (repeat 1 P) (repeat_length _ _)).
    assert (H := Hker ltac:(intros ? ? ? []) O ltac:(lia)). destruct P as [|P']; [lia|]. cbn in H. lra. }
  assert (HLc : length (carts pts) = N) by (unfold carts; apply map_length).
  set (F := fun m n => let '(phi, th, r) := nth n pts (0, 0, 0) in pbasis I J m (sin th) (cos th) (sin phi) (cos phi)).
  set (r := fun n => let '(phi, th, r) := nth n pts (0, 0, 0) in r).
  assert (Htrig : forall n, (n < N)%nat -> let t := penna_trig (nth n (carts pts) (0, 0, 0)) in
     t_r t = r n /\ forall m, pbasis I J m (t_sinth t) (t_costh t) (t_sinphi t) (t_cosphi t) = F m n).
  { intros n Hn. destruct (nth n pts (0, 0, 0)) as [[phi th] rr] eqn:En.
    assert (Hin : In (phi, th, rr) pts) by (rewrite <- En; apply nth_In; exact Hn). destruct (Hdom _ _ _ Hin) as [Hr Hth].
    assert (Ec : nth n (carts pts) (0, 0, 0) = cartesian phi th rr).
    { apply nth_error_nth. unfold carts. rewrite nth_error_map. rewrite (nth_error_nth' _ (0, 0, 0) Hn), En. reflexivity. }
    rewrite Ec, penna_trig_cartesian by easy. cbn. unfold r, F. rewrite En. split; reflexivity. }
  unfold penna_coeffs. rewrite HLc, map_length, HLc. fold P.
  rewrite newMatrix_some; [|lia|lia|rewrite repeat_length; lia].
  destruct (penna_matrix_spec (carts pts) I J K) as (M & EM & LM & HM). rewrite EM. cbn [width height]. rewrite HLc in LM, HM. fold P in LM, HM.
  assert (HM' : forall m n, (m < P)%nat -> (n < N)%nat -> nth (m * N + n) M 0 = F m n).
  { intros m n Hm Hn. rewrite HM by assumption. apply (proj2 (Htrig n Hn)). }
  clear HM. set (Mm := {| vals := M; width := N; height := P |}).
  assert (SM : shaped Mm P N) by (repeat split; cbn; lia).
  destruct (transpose_ok B Mm P N HB SM) as (T & ET & ST & HT). rewrite ET. destruct ST as (T1 & T2 & T3 & _).
  assert (HT' : forall m n, (m < P)%nat -> (n < N)%nat -> nth (n * P + m) (vals T) 0 = F m n).
  { intros m n Hm Hn. specialize (HT m n Hm Hn). unfold entry in HT. rewrite T2 in HT. rewrite HT. cbn [width vals Mm]. now apply HM'. }
  unfold pinv. cbn [width height vals Mm].
  set (out1 := dense_mul P N P M (vals T)).
  assert (L1 : length out1 = (P * P)%nat) by apply dense_mul_length.
  assert (H1 : forall a b, (a < P)%nat -> (b < P)%nat -> sq P out1 a b = sumf N (fun n => F a n * F b n)).
  { intros a b Ha Hb. unfold sq, out1. rewrite dense_mul_nth by assumption. apply sumf_ext. intros n Hn. rewrite HM', HT' by assumption. reflexivity. }
  assert (Hk : forall v : nat -> R, (forall n, (n < N)%nat -> sumf P (fun m => v m * F m n) = 0) -> forall m, (m < P)%nat -> v m = 0).
  { intros v Hv m Hm. set (cs := map v (seq 0 P)).
    assert (Lcs : length cs = P) by (unfold cs; now rewrite map_length, seq_length).
    assert (Hcs : forall m, (m < P)%nat -> nth m cs 0 = v m).
    { intros m' Hm'. unfold cs. rewrite (nth_indep _ 0 (v O)) by (rewrite map_length, seq_length; lia). rewrite (map_nth v), seq_nth by lia. reflexivity. }
    rewrite <- Hcs by exact Hm. apply Hker; [exact Lcs| |exact Hm]. intros phi th rr Hin.
    apply (In_nth _ _ (0, 0, 0)) in Hin. destruct Hin as (n & Hn & En). rewrite penna_func_sum by (fold P; lia). fold P. rewrite bsum_sumf. f_equal.
    etransitivity; [|exact (Hv n Hn)]. apply sumf_ext. intros m' Hm'. rewrite Hcs by exact Hm'. unfold F. rewrite En. reflexivity. }
  assert (Hpd : posdef P (sq P out1)).
  { destruct (gram_posdef N P F Hk) as [Hs Hpos]. split.
    - intros i j Hi Hj. rewrite !H1 by assumption. apply Hs; assumption.
    - intros v Hv. specialize (Hpos v Hv). erewrite sumf_ext; [exact Hpos|]. intros i Hi. cbv beta. apply sumf_ext. intros j Hj. now rewrite H1. }
  destruct (Hinv P out1 HP L1 Hpd) as [Linv Hinv'].
  set (iv := inverse P out1) in *.
  assert (Hinv2 : forall i j, (i < P)%nat -> (j < P)%nat -> sumf P (fun k => sq P iv i k * sumf N (fun n => F k n * F j n)) = delta i j).
  { intros i j Hi Hj. rewrite <- (Hinv' i j Hi Hj). apply sumf_ext. intros k Hk'. now rewrite H1. }
  set (out2 := dense_mul N P P (vals T) iv).
  assert (L2 : length out2 = (N * P)%nat) by apply dense_mul_length.
  assert (H2 : forall n p, (n < N)%nat -> (p < P)%nat -> nth (n * P + p) out2 0 = sumf P (fun q => F q n * sq P iv q p)).
  { intros n p Hn Hp. unfold out2. rewrite dense_mul_nth by assumption. apply sumf_ext. intros q Hq. rewrite HT' by assumption. reflexivity. }
  rewrite pinv_copy by exact L2. rewrite newMatrix_some by (try lia).
  set (pm := {| vals := out2; width := P; height := N |}).
  assert (Sp : shaped pm N P) by (repeat split; cbn; lia).
  destruct (vecMult_ok pm (map (fun p => t_r (penna_trig p)) (carts pts)) (zeros P) N P Sp) as (cs & E & Lc & Hc).
  { now rewrite map_length. } { unfold zeros. apply repeat_length. }
  exists cs. split; [exact E|]. split; [exact Lc|].
  set (c := fun p => sumf N (fun n => r n * sumf P (fun q => F q n * sq P iv q p))).
  assert (Hc' : forall p, (p < P)%nat -> nth p cs 0 = c p).
  { intros p Hp. specialize (Hc p Hp). unfold MatSpec.vec in Hc. rewrite Hc. unfold c. apply sumf_ext. intros n Hn.
    unfold entry. cbn [width vals pm]. rewrite H2 by assumption. f_equal.
    rewrite (nth_indep _ 0 (t_r (penna_trig (0, 0, 0)))) by (rewrite map_length; lia). rewrite (map_nth (fun p => t_r (penna_trig p))).
    apply (proj1 (Htrig n Hn)). }
  intros cs' Lcs' Hne.
  assert (Hres : forall d v, length d = P -> (forall p, (p < P)%nat -> nth p d 0 = v p) ->
     residual (penna_func d I J K) pts = sumf N (fun n => (r n - sumf P (fun m => v m * F m n)) * (r n - sumf P (fun m => v m * F m n)))).
  { intros d v Ld Hd. rewrite residual_sum by exact Ld. fold P. fold N. apply sumf_ext. intros n Hn. unfold r, F.
    destruct (nth n pts (0, 0, 0)) as [[phi th] rr]. assert (Es : sumf P (fun m => nth m d 0 * pbasis I J m (sin th) (cos th) (sin phi) (cos phi)) = sumf P (fun m => v m * pbasis I J m (sin th) (cos th) (sin phi) (cos phi))).
    { apply sumf_ext. intros m Hm. now rewrite Hd. } now rewrite Es. }
  rewrite (Hres cs c Lc Hc'), (Hres cs' (fun m => nth m cs' 0) Lcs') by reflexivity.
  apply Rnot_le_lt. intros Hle. apply Hne. apply (nth_ext _ _ 0 0); [lia|]. intros m Hm. rewrite Lcs' in Hm. rewrite Hc' by exact Hm.
  apply (best_unique N P F r Hk (sq P iv) Hinv2 (fun m => nth m cs' 0) Hle m Hm).
Qed.
