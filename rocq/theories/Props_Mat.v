(** * Properties C18 and C19: math/mat. Floats are reals (see RealBase.v). *)
From Coq Require Import Lra.
From Verif Require Import GoBase GoBaseFacts RealBase LoopBase LoopFacts MatModel MatSpec MatProofs MatProofs2 MatProofs3 MatProofs4 InterpProofs.
Local Open Scope R_scope.
Local Open Scope list_scope.

(** ** C18 *)

(** Mult is the matrix product when the first factor has one row or the second factor is square (missing: every other shape, see the refutations). *)
Theorem C92_mult_partial : forall m1 m2 h p w, shaped m1 h p -> shaped m2 p w -> (h = 1 \/ p = w)%nat ->
  exists r, mult m1 m2 = Some r /\ is_product m1 m2 r h p w.
Proof.
  intros m1 m2 h p w H1 H2 Hs. pose proof H1 as (A1 & A2 & A3 & A4 & A5). pose proof H2 as (B1 & B2 & B3 & B4 & B5).
  unfold mult. rewrite A1, B2. rewrite newMatrix_some by (try assumption; apply zeros_length).
  apply multAt_ok; try assumption. repeat split; cbn; try assumption. apply zeros_length.
Qed.
Print Assumptions C92_mult_partial.

(** MultAt writes the same product over any previous contents of a suitably shaped output. *)
Theorem C92_multAt_partial : forall m1 m2 out h p w, shaped m1 h p -> shaped m2 p w -> shaped out h w -> (h = 1 \/ p = w)%nat ->
  exists r, multAt m1 m2 out = Some r /\ is_product m1 m2 r h p w.
Proof. exact multAt_ok. Qed.
Print Assumptions C92_multAt_partial.

(** Every other shape is wrong: with a narrower second factor Mult always panics ... *)
Theorem C92_mult_narrow_refuted : forall m1 m2 h p w, shaped m1 h p -> shaped m2 p w -> (w < p)%nat -> (2 <= h)%nat -> mult m1 m2 = None.
Proof. exact mult_wide_panics. Qed.
Print Assumptions C92_mult_narrow_refuted.

(** ... and with a wider one the bottom right entry is 0 whatever it should have been. *)
Theorem C92_mult_wide_refuted : forall m1 m2 r h p w, shaped m1 h p -> shaped m2 p w -> (p < w)%nat -> (2 <= h)%nat ->
  mult m1 m2 = Some r -> entry r (h - 1) (w - 1) = 0.
Proof. exact mult_narrow_last. Qed.
Print Assumptions C92_mult_wide_refuted.

Theorem C92_mult_shape_mismatch_panics : forall m1 m2, width m1 <> height m2 -> mult m1 m2 = None.
Proof.
  intros m1 m2 H. unfold mult. destruct (newMatrix _ _ _); [|reflexivity]. unfold multAt.
  destruct (Nat.eqb_spec (width m1) (height m2)); [congruence|reflexivity].
Qed.
Print Assumptions C92_mult_shape_mismatch_panics.

Theorem C18_multVec : forall m v out h w, shaped m h w -> List.length v = w -> List.length out = h ->
  exists r, multVec m v out = Some r /\ List.length r = h /\
    forall i, (i < h)%nat -> vec r i = sumf w (fun k => entry m i k * vec v k).
Proof. exact multVec_ok. Qed.
Print Assumptions C18_multVec.

Theorem C18_vecMult : forall m v out h w, shaped m h w -> List.length v = h -> List.length out = w ->
  exists r, vecMult v m out = Some r /\ List.length r = w /\
    forall j, (j < w)%nat -> vec r j = sumf h (fun k => vec v k * entry m k j).
Proof. exact vecMult_ok. Qed.
Print Assumptions C18_vecMult.

Theorem C18_vector_shape_mismatch_panics : forall m v out,
  (List.length v <> width m \/ List.length out <> height m -> multVec m v out = None) /\
  (List.length v <> height m \/ List.length out <> width m -> vecMult v m out = None).
Proof.
  intros m v out. unfold multVec, vecMult. split; intros [H|H].
  - destruct (Nat.eqb_spec (width m) (List.length v)); [congruence|]. now rewrite orb_true_r.
  - destruct (Nat.eqb_spec (height m) (List.length out)); [congruence|]. reflexivity.
  - destruct (Nat.eqb_spec (height m) (List.length v)); [congruence|]. reflexivity.
  - destruct (Nat.eqb_spec (width m) (List.length out)); [congruence|]. now rewrite orb_true_r.
Qed.
Print Assumptions C18_vector_shape_mismatch_panics.

(** Transpose is right for every shape, whatever the block size constant (16000000 in the source). *)
Theorem C18_transpose : forall B m h w, (1 <= B)%nat -> shaped m h w -> exists r, transpose B m = Some r /\ is_transpose m r h w.
Proof. exact transpose_ok. Qed.
Print Assumptions C18_transpose.

Definition ex_m23 : matrix := {| vals := [1; 2; 3; 4; 5; 6]; width := 3; height := 2 |}.
Definition ex_m33 : matrix := {| vals := [1; 0; 2; 0; 1; 0; 3; 0; 1]; width := 3; height := 3 |}.
Example C18_nonvacuous : shaped ex_m23 2 3 /\ shaped ex_m33 3 3 /\
  (exists r, mult ex_m23 ex_m33 = Some r /\ entry r 1 2 = 14) /\ (exists r, transpose 1 ex_m23 = Some r /\ entry r 2 0 = 3).
Proof.
  assert (H1 : shaped ex_m23 2 3) by (repeat split; cbn; lia). assert (H2 : shaped ex_m33 3 3) by (repeat split; cbn; lia).
  split; [assumption|]. split; [assumption|]. split.
  - destruct (C92_mult_partial _ _ _ _ _ H1 H2) as (r & E & _ & H); [lia|]. exists r. split; [exact E|]. rewrite H by lia. cbn. lra.
  - destruct (C18_transpose 1 _ _ _ (le_n 1) H1) as (r & E & _ & H). exists r. split; [exact E|]. rewrite H by lia. reflexivity.
Qed.

(** ** C19 *)

(** Determinant returns the determinant of every non-singular matrix, with or without row interchanges. *)
Theorem C19_determinant : forall m n, shaped m n n -> det n (entry m) <> 0 -> determinant m = Some (det n (entry m)).
Proof. exact determinant_ok. Qed.
Print Assumptions C19_determinant.

(** LU factorises every non-singular matrix: the stored unit lower and upper factors multiply to a row permutation of it, and no pivot is zero. *)
Theorem C19_factorisation : forall m n, shaped m n n -> det n (entry m) <> 0 ->
  exists f, luOf m = Some f /\ lu_n f = n /\
    let L i l := if (l <? i)%nat then luEntry f i l else if (l =? i)%nat then 1 else 0 in
    let U l j := if (j <? l)%nat then 0 else luEntry f l j in
    (forall i, (i < n)%nat -> U i i <> 0) /\
    exists sg : nat -> nat, (forall i, (i < n)%nat -> (sg i < n)%nat) /\ (forall r, (r < n)%nat -> exists i, (i < n)%nat /\ sg i = r) /\
      forall i j, (i < n)%nat -> (j < n)%nat -> entry m (sg i) j = sumf n (fun l => L i l * U l j).
Proof.
  intros m n Hm HA. destruct (luOf_ok m n Hm HA) as (f & E & Hn & _ & _ & _ & Hd & _ & sg & Hsg & Hsurj & _ & Hfac).
  exists f. split; [exact E|]. split; [exact Hn|]. unfold luEntry. rewrite Hn. cbv zeta. split.
  - intros i Hi. rewrite Nat.ltb_irrefl. now apply Hd.
  - exists sg. split; [assumption|]. split; [assumption|]. intros i j Hi Hj. rewrite Hfac by assumption.
    rewrite <- (sumf_trunc i n) by lia.
    rewrite (sumf_ext n (fun l => _ * _) (fun l => (if (l <? i)%nat then mg n (lu_vals f) i l * upper n (mg n (lu_vals f)) l j else 0) +
       (if (l =? i)%nat then upper n (mg n (lu_vals f)) i j else 0))).
    + rewrite sumf_plus. f_equal. rewrite (sumf_single n i); [now rewrite Nat.eqb_refl|assumption|].
      intros l Hl Hne. destruct (Nat.eqb_spec l i); [lia|reflexivity].
    + intros l Hl. unfold upper, mg. nat_cases; subst; cbn [andb]; try lia; try lra.
Qed.
Print Assumptions C19_factorisation.

(** SolveVector solves A x = b when the factorisation interchanged no rows (missing: all matrices that need an interchange, see below). *)
Theorem C93_solveVector_partial : forall m n f b, shaped m n n -> det n (entry m) <> 0 -> luOf m = Some f -> noSwap f -> List.length b = n ->
  exists x, solveVector m b = Some x /\ solves m x b n.
Proof.
  intros m n f b Hm HA Ef Hns Lb. destruct (luOf_ok m n Hm HA) as (f' & Ef' & Hf). rewrite Ef in Ef'. injection Ef' as <-.
  unfold solveVector. rewrite Ef, Lb. destruct (luSolveVector_noswap n (entry m) f b (zeros n) Hf Hns Lb (zeros_length n)) as (x & Ex & Lx & H).
  exists x. split; [exact Ex|]. split; assumption.
Qed.
Print Assumptions C93_solveVector_partial.

(** The same for any caller-supplied output slice, including b itself. *)
Theorem C93_luSolveVector_partial : forall m n f b xs, shaped m n n -> det n (entry m) <> 0 -> luOf m = Some f -> noSwap f ->
  List.length b = n -> List.length xs = n -> exists x, luSolveVector f b xs = Some x /\ solves m x b n.
Proof.
  intros m n f b xs Hm HA Ef Hns Lb Lx. destruct (luOf_ok m n Hm HA) as (f' & Ef' & Hf). rewrite Ef in Ef'. injection Ef' as <-.
  destruct (luSolveVector_noswap n (entry m) f b xs Hf Hns Lb Lx) as (x & Ex & Lx' & H). exists x. split; [exact Ex|]. split; assumption.
Qed.
Print Assumptions C93_luSolveVector_partial.

(** The condition is exact: whenever rows were interchanged there is a right-hand side for which the answer is wrong
    (pivot is a list of interchanges, but forwardSubst uses it as a permutation). *)
Theorem C93_solveVector_refuted : forall m n f, shaped m n n -> det n (entry m) <> 0 -> luOf m = Some f -> ~ noSwap f ->
  exists b x, List.length b = n /\ solveVector m b = Some x /\ ~ solves m x b n.
Proof. exact swap_breaks_solve. Qed.
Print Assumptions C93_solveVector_refuted.

(** A class of systems that is always solved: upper triangular with non-zero diagonal, any size. *)
Theorem C93_triangular_systems_partial : forall m n b, shaped m n n -> (forall i, (i < n)%nat -> entry m i i <> 0) ->
  (forall i j, (i < n)%nat -> (j < i)%nat -> entry m i j = 0) -> List.length b = n -> exists x, solveVector m b = Some x /\ solves m x b n.
Proof.
  intros m n b Hm Hd Hu Lb. destruct (triangular_noswap m n Hm Hd Hu) as (f & Ef & Hns).
  apply (C93_solveVector_partial m n f b); try assumption. rewrite det_triangular by assumption.
  assert (Hp : forall k, (k <= n)%nat -> prodf k (fun j => entry m j j) <> 0); [|now apply Hp].
  intros k. induction k as [|k IH]; intros Hk; cbn; [lra|]. apply Rmult_integral_contrapositive. split; [apply IH; lia|apply Hd; lia].
Qed.
Print Assumptions C93_triangular_systems_partial.

(** Invert returns the two-sided inverse under the same condition. *)
Theorem C93_invert_partial : forall m n f, shaped m n n -> det n (entry m) <> 0 -> luOf m = Some f -> noSwap f ->
  exists r, invert m = Some r /\ shaped r n n /\
    (forall i c, (i < n)%nat -> (c < n)%nat -> sumf n (fun j => entry m i j * entry r j c) = delta i c) /\
    (forall i c, (i < n)%nat -> (c < n)%nat -> sumf n (fun j => entry r i j * entry m j c) = delta i c).
Proof. exact invert_noswap. Qed.
Print Assumptions C93_invert_partial.

(** LUFactors.SolveMatrix(b, x) solves for what x held before the call, so it is right when b and x are the same matrix. *)
Theorem C93_luSolveMatrix_in_place_partial : forall m n f b, shaped m n n -> det n (entry m) <> 0 -> luOf m = Some f -> noSwap f -> shaped b n n ->
  exists r, luSolveMatrix f b b = Some r /\ shaped r n n /\
    forall i c, (i < n)%nat -> (c < n)%nat -> sumf n (fun j => entry m i j * entry r j c) = entry b i c.
Proof.
  intros m n f b Hm HA Ef Hns Hb. destruct (luOf_ok m n Hm HA) as (f' & Ef' & Hf). rewrite Ef in Ef'. injection Ef' as <-.
  now apply luSolveMatrix_noswap.
Qed.
Print Assumptions C93_luSolveMatrix_in_place_partial.

(** Matrix.SolveMatrix(b) ignores b: its result is the same for all b and, without interchanges, wrong for every b <> 0. *)
Theorem C93_solveMatrix_ignores_b_refuted : forall m n b b', shaped b n n -> shaped b' n n -> solveMatrix m b = solveMatrix m b'.
Proof. exact solveMatrix_ignores_b. Qed.
Print Assumptions C93_solveMatrix_ignores_b_refuted.

Theorem C93_solveMatrix_refuted : forall m n f b i c, shaped m n n -> det n (entry m) <> 0 -> luOf m = Some f -> noSwap f -> shaped b n n ->
  (i < n)%nat -> (c < n)%nat -> entry b i c <> 0 ->
  exists r, solveMatrix m b = Some r /\ sumf n (fun j => entry m i j * entry r j c) <> entry b i c.
Proof.
  intros m n f b i c Hm HA Ef Hns Hb Hi Hc Hne. destruct (luOf_ok m n Hm HA) as (f' & Ef' & Hf). rewrite Ef in Ef'. injection Ef' as <-.
  pose proof Hm as (H1 & W1 & L1 & N1 & N2). unfold solveMatrix. rewrite L1, W1, H1, newMatrix_some by (try assumption; apply zeros_length). rewrite Ef.
  destruct (luSolveMatrix_noswap n (entry m) f b {| vals := zeros (n * n); width := n; height := n |} Hf Hns Hb) as (r & Er & _ & Hr).
  { repeat split; cbn; try assumption. apply zeros_length. }
  exists r. split; [exact Er|]. rewrite Hr by assumption. unfold entry at 1. cbn [vals]. rewrite zeros_nth. auto.
Qed.
Print Assumptions C93_solveMatrix_refuted.

(** A matrix with a zero row is reported (panic), never solved. *)
Theorem C19_zero_row_panics : forall m n i, shaped m n n -> (i < n)%nat -> (forall j, (j < n)%nat -> entry m i j = 0) ->
  luOf m = None /\ (forall b, solveVector m b = None) /\ invert m = None /\ determinant m = None.
Proof.
  intros m n i (H1 & W1 & L1 & N1 & _) Hi Hz.
  assert (E : luOf m = None).
  { unfold luOf. rewrite W1, H1, Nat.eqb_refl. cbn [negb]. unfold factorizeInPlace. rewrite (rowScales_none n (vals m) i); auto.
    intros j Hj. rewrite <- (Hz j Hj). unfold entry, mg. now rewrite W1. }
  unfold solveVector, invert, determinant. rewrite E. auto.
Qed.
Print Assumptions C19_zero_row_panics.

(** Non-vacuity: a concrete system that is factorised without interchanges, and one that is not. *)
Definition ex_tri : matrix := {| vals := [2; 1; 5; 0; 3; 4; 0; 0; 7]; width := 3; height := 3 |}.
Example C19_nonvacuous : shaped ex_tri 3 3 /\ det 3 (entry ex_tri) = 42 /\ (exists f, luOf ex_tri = Some f /\ noSwap f).
Proof.
  assert (H : shaped ex_tri 3 3) by (repeat split; cbn; lia). split; [assumption|]. split.
  - unfold entry. cbn. lra.
  - apply (triangular_noswap _ 3 H).
    + intros i Hi. do 3 (destruct i as [|i]; [cbn; lra|]). lia.
    + intros i j Hi Hj. do 3 (destruct i as [|i]; [do 3 (destruct j as [|j]; [cbn; reflexivity || lia|]); lia|]). lia.
Qed.

(** In user terms: every non-singular matrix whose first entry is 0 is solved wrongly for some right-hand side. *)
Theorem C93_zero_corner_refuted : forall m n, shaped m n n -> det n (entry m) <> 0 -> entry m 0 0 = 0 ->
  exists b x, List.length b = n /\ solveVector m b = Some x /\ ~ solves m x b n.
Proof.
  intros m n Hm HA H00. destruct (luOf_ok m n Hm HA) as (f & E & Hf).
  apply (C93_solveVector_refuted m n f); try assumption. intros Hns.
  assert (N : (0 < n)%nat) by (destruct Hm as (_ & _ & _ & N & _); lia).
  pose proof (proj1 (noSwap_nth _ _ _ Hf) Hns) as Hid.
  destruct Hf as (_ & _ & _ & _ & Hd & _ & sg & _ & _ & Hsgid & Hfac).
  apply (Hd O N). rewrite <- H00. specialize (Hfac O O N N). rewrite (Hsgid O N), (Hid O N) in Hfac by (intros; lia). rewrite Hfac. cbn [sumf].
  unfold upper. rewrite (proj2 (Nat.ltb_lt 0 n) N). cbn [andb Nat.ltb Nat.leb]. lra.
Qed.
Print Assumptions C93_zero_corner_refuted.

Example C19_refuted_nonvacuous : exists m, shaped m 2 2 /\ det 2 (entry m) <> 0 /\ entry m 0 0 = 0.
Proof.
  exists {| vals := [0; 1; 1; 0]; width := 2; height := 2 |}. split; [repeat split; cbn; lia|]. unfold entry. cbn. split; lra.
Qed.
