(** * Property C79: the Penna-Dines fit is the least-squares fit. Floats are reals (see RealBase.v). *)
From Coq Require Import Lra Lia.
From Verif Require Import GoBase GoBaseFacts RealBase LoopBase LoopFacts MatModel MatSpec MatProofs LosModel FitModel FitSpec FitProofs FitProofs2 ShellModel ShellProofs RockstarProofs KdeProofs2 KdeProofs4.
Import List ListNotations.
Local Open Scope R_scope.

Definition places (pts : list (R * R * R)) : list (R * R * R) := map (fun p => let '(phi, th, r) := p in at_angles phi th r) pts.

(** If the points determine the shell (no shell but the zero one vanishes at all of them), PennaCoeffs returns I*J*K coefficients, and every other
    shell of this kind has a larger sum of squared radial distances from the points. The library's Inverse is only assumed to be right on symmetric
    positive definite matrices, and the block size of the transposition (mat.go) is arbitrary. *)
Theorem C79_least_squares : forall B inverse pts I J K,
  (1 <= B)%nat -> inverts_posdef inverse -> (1 <= I * J * K)%nat ->
  (forall phi th r, In (phi, th, r) pts -> 0 < r /\ 0 < th < PI) ->
  (forall cs, length cs = (I * J * K)%nat -> (forall phi th r, In (phi, th, r) pts -> penna_func cs I J K phi th = Some 0) -> forall m, (m < I * J * K)%nat -> nth m cs 0 = 0) ->
  exists cs, penna_coeffs B inverse (places pts) I J K = Some cs /\ length cs = (I * J * K)%nat /\
    forall cs', length cs' = (I * J * K)%nat -> cs' <> cs -> residual (penna_func cs I J K) pts < residual (penna_func cs' I J K) pts.
Proof. exact penna_coeffs_spec. Qed.
Print Assumptions C79_least_squares.

Lemma residual_nonneg s pts : 0 <= residual s pts.
Proof.
  unfold residual. induction pts as [|[[phi th] r] pts IH]; cbn [fold_right]; [lra|]. destruct (s phi th) as [v|]; [|lra]. pose proof (Rle_0_sqr (r - v)) as H. unfold Rsqr in H. lra.
Qed.

(** So points that lie on a shell give back its coefficients. *)
Theorem C79_exact : forall B inverse pts I J K cs0,
  (1 <= B)%nat -> inverts_posdef inverse -> (1 <= I * J * K)%nat -> length cs0 = (I * J * K)%nat ->
  (forall phi th r, In (phi, th, r) pts -> 0 < r /\ 0 < th < PI /\ penna_func cs0 I J K phi th = Some r) ->
  (forall cs, length cs = (I * J * K)%nat -> (forall phi th r, In (phi, th, r) pts -> penna_func cs I J K phi th = Some 0) -> forall m, (m < I * J * K)%nat -> nth m cs 0 = 0) ->
  penna_coeffs B inverse (places pts) I J K = Some cs0.
Proof.
  intros B inverse pts I J K cs0 HB Hi HP L0 Hpts Hker.
  destruct (C79_least_squares B inverse pts I J K HB Hi HP) as (cs & E & L & Hmin); [intros phi th r Hin; destruct (Hpts _ _ _ Hin) as (? & ? & _); auto|exact Hker|].
  rewrite E. f_equal. destruct (list_eq_dec Req_EM_T cs0 cs) as [->|Hne]; [reflexivity|]. exfalso. specialize (Hmin cs0 L0 Hne).
  assert (Hz : residual (penna_func cs0 I J K) pts = 0).
  { clear - Hpts. unfold residual. induction pts as [|[[phi th] r] pts IH]; cbn [fold_right]; [reflexivity|].
    destruct (Hpts phi th r (or_introl eq_refl)) as (_ & _ & ->). rewrite IH by (intros; apply Hpts; now right). ring. }
  pose proof (residual_nonneg (penna_func cs I J K) pts). lra.
Qed.
Print Assumptions C79_exact.

(** Every point off the z axis is of the form the theorems above speak of. *)
Theorem C79_points : forall x y z, 0 < x * x + y * y -> exists phi th r, 0 < r /\ 0 < th < PI /\ (x, y, z) = at_angles phi th r.
Proof.
  intros x y z Hp. set (r := sqrt (x * x + y * y + z * z)). assert (Hr : 0 < r) by (apply sqrt_lt_R0; nra).
  assert (Hr2 : r * r = x * x + y * y + z * z) by (apply sqrt_sqrt; nra).
  assert (Hz : -1 < z / r < 1). { assert (Hzr : (z / r) * r = z) by (field; lra). set (q := z / r) in *. clearbody q. split; apply Rnot_le_lt; intros C; assert (1 <= q * q) by nra; assert (r * r * 1 <= r * r * (q * q)) by (apply Rmult_le_compat_l; nra); assert (z * z = r * r * (q * q)) by (rewrite <- Hzr; ring); lra. }
  exists (atan2 y x), (acos (z / r)), r. split; [exact Hr|].
  pose proof (acos_bound_lt (z / r) Hz) as Hb. split; [exact Hb|].
  destruct (atan2_cos_sin y x Hp) as [Hc Hs]. unfold at_angles. rewrite Hc, Hs, cos_acos, sin_acos by lra.
  set (rho := sqrt (x * x + y * y)). assert (Hrho : 0 < rho) by now apply sqrt_lt_R0.
  assert (Es : sqrt (1 - (z / r)²) = rho / r).
  { unfold Rsqr. replace (1 - z / r * (z / r)) with ((x * x + y * y) / (r * r)) by (replace (x * x + y * y) with (r * r - z * z) by lra; field; lra).
    rewrite sqrt_div_alt by nra. now rewrite sqrt_square by lra. }
  rewrite Es. f_equal; [f_equal|]; field; lra.
Qed.
Print Assumptions C79_points.

(** Without points the fit panics. *)
Theorem C79_no_points : forall B inverse I J K, penna_coeffs B inverse [] I J K = None.
Proof. exact penna_coeffs_empty. Qed.
Print Assumptions C79_no_points.

(** PennaVolumeFit is the fit with K = 2 to all points of all planes, ring by ring, placed in the volume. *)
Theorem C79_volume_fit : forall B inverse xs ys h I J (place : nat -> R -> R -> R * R * R),
  length ys = length xs -> (forall i, (i < length xs)%nat -> length (nth i ys []) = length (nth i xs [])) ->
  (forall i px py, (i < length xs)%nat -> plane_to_volume h i px py = Some (place i px py)) ->
  penna_volume_fit B inverse xs ys h I J =
    penna_coeffs B inverse (concat (map (fun i => map (fun p => place i (fst p) (snd p)) (combine (nth i xs []) (nth i ys []))) (seq 0 (length xs)))) I J 2.
Proof.
  intros B inverse xs ys h I J place Ly Lrow Hp. unfold penna_volume_fit.
  assert (E : volume_points xs ys h = Some (concat (map (fun i => map (fun p => place i (fst p) (snd p)) (combine (nth i xs []) (nth i ys []))) (seq 0 (length xs))))).
  { unfold volume_points. match goal with |- loop _ ?b ?s = _ => set (body := b); set (s0 := s) end.
    destruct (loop_inv (fun k out => out = concat (map (fun i => map (fun p => place i (fst p) (snd p)) (combine (nth i xs []) (nth i ys []))) (seq 0 k))) (length xs) body s0) as (st & E & H).
    - reflexivity.
    - intros k st Hk Hst. unfold body. rewrite (rd_nth xs k []) by exact Hk. set (xi := nth k xs []) in *. set (yi := nth k ys []).
      assert (Lyi : length yi = length xi) by now apply Lrow.
      match goal with |- exists s', loop _ ?b ?s = _ /\ _ => set (body2 := b) end.
      destruct (loop_inv (fun j out => out = st ++ firstn j (map (fun p => place k (fst p) (snd p)) (combine xi yi))) (length xi) body2 st) as (st2 & E2 & H2).
      + cbn [firstn]. now rewrite app_nil_r.
      + intros j s1 Hj H1. unfold body2. rewrite (rd_nth xi j 0) by exact Hj. rewrite (rd_nth ys k []) by lia. fold yi. rewrite (rd_nth yi j 0) by lia. rewrite Hp by exact Hk.
        eexists. split; [reflexivity|]. rewrite H1, <- app_assoc. f_equal.
        rewrite (firstn_snoc _ j (place k (nth j xi 0) (nth j yi 0))) by (rewrite map_length, combine_length; lia). do 2 f_equal. symmetry. apply nth_error_nth. rewrite nth_error_map, (nth_error_nth' _ (0, 0)) by (rewrite combine_length; lia).
        rewrite combine_nth by lia. reflexivity.
      + exists st2. split; [exact E2|]. rewrite H2, Hst, seq_S, map_app, concat_app. cbn [map concat Nat.add]. rewrite app_nil_r. f_equal.
        fold xi. fold yi. apply firstn_all2. rewrite map_length, combine_length, Lyi, Nat.min_id. apply le_n.
    - rewrite E. f_equal. exact H. }
  now rewrite E.
Qed.
Print Assumptions C79_volume_fit.

(** Two points of a shell 2 - 2 cos(theta): the fit of order 1 (I = J = 1, K = 2) finds it, with a concrete inversion. *)
Example C79_nonvacuous : inverts_posdef pd_inverse /\ penna_coeffs 16 pd_inverse (places [(0, PI / 3, 1); (1, PI / 2, 2)]) 1 1 2 = Some [2; -2].
Proof.
  split; [exact pd_inverse_ok|]. pose proof PI_RGT_0 as Hpi.
  assert (Hf : forall a b phi th, penna_func [a; b] 1 1 2 phi th = Some (a + b * cos th)).
  { intros a b phi th. rewrite penna_func_sum by (cbn; lia). cbn. f_equal. unfold pbasis. cbn. ring. }
  apply C79_exact; [lia|exact pd_inverse_ok|cbn; lia|reflexivity| |].
  - intros phi th r [E|[E|[]]]; injection E as <- <- <-; (split; [lra|]; split; [lra|]); rewrite Hf, ?cos_PI3, ?cos_PI2; f_equal; lra.
  - intros cs L Hz m Hm. destruct cs as [|a [|b [|? ?]]]; try discriminate. cbn in Hm.
    pose proof (Hz _ _ _ (or_introl eq_refl)) as H1. pose proof (Hz _ _ _ (or_intror (or_introl eq_refl))) as H2. rewrite Hf, ?cos_PI3, ?cos_PI2 in H1, H2. injection H1 as H1. injection H2 as H2.
    rewrite cos_PI3 in H1. rewrite cos_PI2 in H2. destruct m as [|[|m]]; cbn; [lra|lra|lia].
Qed.
