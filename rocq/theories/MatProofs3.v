(** * C19: the LU factorisation computes P A = L U and the determinant. *)
From Coq Require Import Lra.
From Verif Require Import GoBase GoBaseFacts RealBase LoopBase LoopFacts MatModel MatSpec MatProofs MatProofs2 InterpProofs.
Local Open Scope R_scope.

Definition mg (n : nat) (l : list R) (i j : nat) : R := nth (i * n + j) l 0.

Lemma rd_mg n l i j : List.length l = (n * n)%nat -> (i < n)%nat -> (j < n)%nat -> rd l (i * n + j) = Some (mg n l i j).
Proof. intros. unfold mg. apply rd_nth. rewrite H. now apply idx_lt. Qed.

Lemma wr_mg n l i j v : List.length l = (n * n)%nat -> (i < n)%nat -> (j < n)%nat ->
  exists l', wr l (i * n + j) v = Some l' /\ List.length l' = (n * n)%nat /\
    forall a b, (a < n)%nat -> (b < n)%nat -> mg n l' a b = if (a =? i)%nat && (b =? j)%nat then v else mg n l a b.
Proof.
  intros L Hi Hj. destruct (wr_some l (i * n + j) v 0) as (l' & E & L' & H); [rewrite L; now apply idx_lt|].
  exists l'. split; [exact E|]. split; [lia|]. intros a b Ha Hb. unfold mg. rewrite H, idx_eqb by assumption. reflexivity.
Qed.

(** ** Row scales *)
Lemma row_max n l i : List.length l = (n * n)%nat -> (i < n)%nat ->
  exists big, loop n (fun j big => do a <- rd l (i * n + j)%nat; Some (if Rltb big (Rabs a) then Rabs a else big)) 0 = Some big /\
    0 <= big /\ (big = 0 <-> forall j, (j < n)%nat -> mg n l i j = 0).
Proof.
  intros L Hi.
  match goal with |- context [loop n ?B ?S] => destruct (loop_inv (fun k big => 0 <= big /\ (big = 0 <-> forall j, (j < k)%nat -> mg n l i j = 0)) n B S) as (big & E & H) end.
  - split; [lra|]. split; [intros _ j Hj; lia|reflexivity].
  - intros k big Hk (H0 & Hb). rewrite (rd_mg n l i k) by assumption. eexists. split; [reflexivity|]. cbv beta.
    pose proof (Rabs_pos (mg n l i k)) as Hp.
    destruct (Rltb big (Rabs (mg n l i k))) eqn:El.
    + apply Rltb_true in El. split; [assumption|]. split; [lra|]. intros Hall. rewrite (Hall k), Rabs_R0 by lia. reflexivity.
    + apply Rltb_false in El. split; [assumption|]. rewrite Hb. split; intros Hall j Hj; [|apply Hall; lia].
      destruct (Nat.eq_dec j k) as [->|]; [|apply Hall; lia]. apply Hb in Hall. subst big.
      destruct (Req_dec (mg n l i k) 0) as [|Hn]; [assumption|]. apply Rabs_pos_lt in Hn. lra.
  - exists big. auto.
Qed.

Lemma rowScales_ok n l : List.length l = (n * n)%nat ->
  (forall i, (i < n)%nat -> exists j, (j < n)%nat /\ mg n l i j <> 0) ->
  exists vv, rowScales n l = Some vv /\ List.length vv = n /\ forall i, (i < n)%nat -> 0 < nth i vv 0.
Proof.
  intros L Hr. unfold rowScales.
  match goal with |- context [loop n ?B (zeros n)] => destruct (loop_inv (fun k vv => List.length vv = n /\ forall i, (i < k)%nat -> 0 < nth i vv 0) n B (zeros n)) as (vv & E & H) end.
  - split; [apply zeros_length|]. intros; lia.
  - intros i vv Hi (Lv & Hv). destruct (row_max n l i L Hi) as (big & Eb & Hb0 & Hb). rewrite Eb.
    destruct (Reqb big 0) eqn:E0.
    + apply Reqb_true in E0. destruct (Hr i Hi) as (j & Hj & Hn). elim Hn. now apply Hb.
    + apply Reqb_false in E0. destruct (wr_some vv i (1 / big) 0) as (vv' & E & L' & H); [lia|].
      exists vv'. split; [exact E|]. split; [lia|]. intros a Ha. rewrite H. destruct (Nat.eqb_spec a i).
      * apply Rdiv_lt_0_compat; lra.
      * apply Hv. lia.
  - exists vv. tauto.
Qed.

Lemma rowScales_none n l i : List.length l = (n * n)%nat -> (i < n)%nat -> (forall j, (j < n)%nat -> mg n l i j = 0) -> rowScales n l = None.
Proof.
  intros L Hi Hz. unfold rowScales. apply (loop_none n (S i)); [lia|]. cbn [loop].
  match goal with |- match ?x with _ => _ end = None => destruct x; [|reflexivity] end.
  destruct (row_max n l i L Hi) as (big & Eb & Hb0 & Hb). rewrite Eb. apply Hb in Hz. subst big.
  now rewrite (proj2 (Reqb_true 0 0) eq_refl).
Qed.

(** ** Pivot search *)
Lemma pivotSearch_ok n k l vv im : List.length l = (n * n)%nat -> List.length vv = n -> (k < n)%nat ->
  (forall i, (i < n)%nat -> 0 < nth i vv 0) -> (exists i, (k <= i < n)%nat /\ mg n l i k <> 0) ->
  exists im', pivotSearch n k l vv im = Some im' /\ (k <= im' < n)%nat /\ mg n l im' k <> 0.
Proof.
  intros L Lv Hk Hv (i0 & Hi0 & Hn0). unfold pivotSearch.
  match goal with |- context [loop_from k n ?B ?S] => destruct (loop_from_inv (fun i s => 0 <= fst s /\
     (0 < fst s -> (k <= snd s < i)%nat /\ mg n l (snd s) k <> 0) /\ (fst s = 0 -> forall j, (k <= j < i)%nat -> mg n l j k = 0)) k n B S) as ([big im'] & E & H0 & H1 & H2) end.
  - lia.
  - cbn [fst snd]. split; [lra|]. split; [lra|]. intros; lia.
  - intros i [big im'] Hi (H0 & H1 & H2). cbn [fst snd] in *.
    rewrite (rd_nth vv i 0) by lia. rewrite (rd_mg n l i k) by lia. eexists. split; [reflexivity|].
    pose proof (Hv i ltac:(lia)) as Hvi. pose proof (Rabs_pos (mg n l i k)) as Hp.
    assert (Hz : forall x, x = mg n l i k -> x <> 0 -> 0 < nth i vv 0 * Rabs x).
    { intros x _ Hx. apply Rmult_lt_0_compat; [assumption|]. now apply Rabs_pos_lt. }
    destruct (Rltb big _) eqn:El; cbn [fst snd].
    + apply Rltb_true in El. split; [lra|]. split.
      * intros _. split; [lia|]. intros Ez. rewrite Ez, Rabs_R0 in El. lra.
      * intros; lra.
    + apply Rltb_false in El. split; [assumption|]. split.
      * intros Hb. destruct (H1 Hb). split; [lia|assumption].
      * intros Hb j Hj. destruct (Nat.eq_dec j i) as [->|]; [|apply H2; [assumption|lia]].
        destruct (Req_dec (mg n l i k) 0) as [|Hn]; [assumption|]. specialize (Hz _ eq_refl Hn). lra.
  - rewrite E. exists im'. cbn [fst snd] in *. split; [reflexivity|].
    destruct (Rle_lt_or_eq_dec _ _ H0) as [Hb|Hb]; [apply (H1 Hb)|].
    elim Hn0. apply H2; [now symmetry|lia].
Qed.

(** ** Row swap *)
Lemma swapRows_ok n k im l : List.length l = (n * n)%nat -> (k < n)%nat -> (im < n)%nat ->
  exists l', swapRows n k im l = Some l' /\ List.length l' = (n * n)%nat /\
    forall i j, (i < n)%nat -> (j < n)%nat -> mg n l' i j = mg n l (tr k im i) j.
Proof.
  intros L Hk Him. unfold swapRows.
  match goal with |- context [loop n ?B ?S] => destruct (loop_inv (fun c l' => List.length l' = (n * n)%nat /\
    forall i j, (i < n)%nat -> (j < n)%nat -> mg n l' i j = if (j <? c)%nat then mg n l (tr k im i) j else mg n l i j) n B S) as (l' & E & L' & H) end.
  - split; [assumption|]. intros. destruct (Nat.ltb_spec j 0); [lia|reflexivity].
  - intros c t Hc (Lt & Ht). rewrite (rd_mg n t k c), (rd_mg n t im c) by assumption.
    destruct (wr_mg n t im c (mg n t k c)) as (t1 & E1 & L1 & H1); try assumption. rewrite E1.
    destruct (wr_mg n t1 k c (mg n t im c)) as (t2 & E2 & L2 & H2); try assumption.
    exists t2. split; [exact E2|]. split; [assumption|]. intros i j Hi Hj. rewrite H2, H1, !Ht by assumption.
    unfold tr. nat_cases; subst; cbn [andb]; try reflexivity; try lia.
  - exists l'. split; [exact E|]. split; [assumption|]. intros i j Hi Hj. rewrite H by assumption. now rewrite (proj2 (Nat.ltb_lt j n)).
Qed.

(** ** Elimination below the pivot *)
Definition elim (k : nat) (V : nat -> nat -> R) (i j : nat) : R :=
  if (k <? i)%nat then
    if (j =? k)%nat then V i k / V k k
    else if (k <? j)%nat then V i j - V i k / V k k * V k j else V i j
  else V i j.

Lemma eliminate_ok n k l : List.length l = (n * n)%nat -> (k < n)%nat ->
  exists l', eliminate n k l = Some l' /\ List.length l' = (n * n)%nat /\
    forall i j, (i < n)%nat -> (j < n)%nat -> mg n l' i j = elim k (mg n l) i j.
Proof.
  intros L Hk. unfold eliminate.
  match goal with |- context [loop_from (k + 1) n ?B ?S] => destruct (loop_from_inv (fun c l' => List.length l' = (n * n)%nat /\
    forall i j, (i < n)%nat -> (j < n)%nat -> mg n l' i j = if (i <? c)%nat then elim k (mg n l) i j else mg n l i j) (k + 1) n B S) as (l' & E & L' & H) end.
  - lia.
  - split; [assumption|]. intros i j Hi Hj. unfold elim. nat_cases; reflexivity.
  - intros c t Hc (Lt & Ht). rewrite (rd_mg n t c k), (rd_mg n t k k) by lia.
    destruct (wr_mg n t c k (mg n t c k / mg n t k k)) as (t1 & E1 & L1 & H1); try (assumption || lia). rewrite E1.
    rewrite (rd_mg n t1 c k) by (assumption || lia).
    rewrite H1 by lia. rewrite !Nat.eqb_refl. cbn [andb].
    match goal with |- context [loop_from (k + 1) n ?B ?S] => destruct (loop_from_inv (fun d l' => List.length l' = (n * n)%nat /\
      forall i j, (i < n)%nat -> (j < n)%nat -> mg n l' i j = if (i <? c)%nat || ((i =? c)%nat && (j <? d)%nat) then elim k (mg n l) i j else mg n l i j) (k + 1) n B S) as (l' & E & L' & H) end.
    + lia.
    + split; [assumption|]. intros i j Hi Hj. rewrite H1, !Ht by lia. unfold elim. nat_cases; subst; cbn [andb orb]; try reflexivity; try lia.
    + intros d u Hd (Lu & Hu). rewrite (rd_mg n u c d), (rd_mg n u k d) by lia.
      destruct (wr_mg n u c d (mg n u c d - mg n t c k / mg n t k k * mg n u k d)) as (u1 & Eu & Lu1 & Hu1); try (assumption || lia).
      exists u1. split; [exact Eu|]. split; [assumption|]. intros i j Hi Hj. rewrite Hu1, !Hu, !Ht by lia.
      unfold elim. nat_cases; subst; cbn [andb orb]; try reflexivity; try lia.
    + exists l'. split; [exact E|]. split; [assumption|]. intros i j Hi Hj. rewrite H by assumption. nat_cases; subst; cbn [andb orb]; try reflexivity; lia.
  - exists l'. split; [exact E|]. split; [assumption|]. intros i j Hi Hj. rewrite H by assumption. nat_cases; reflexivity.
Qed.

(** ** The invariant *)
(** The upper part of V, columns below k cleared under the diagonal. *)
Definition upper (k : nat) (V : nat -> nat -> R) (i j : nat) : R := if (j <? k)%nat && (j <? i)%nat then 0 else V i j.

Record lu_inv (n : nat) (A : nat -> nat -> R) (k : nat) (s : fstate) : Prop := {
  li_len : List.length (f_vs s) = (n * n)%nat;
  li_lvv : List.length (f_vv s) = n;
  li_lpiv : List.length (f_piv s) = n;
  li_vv : forall i, (i < n)%nat -> 0 < nth i (f_vv s) 0;
  li_det : det n A = f_d s * det n (upper k (mg n (f_vs s)));
  li_diag : forall l, (l < k)%nat -> mg n (f_vs s) l l <> 0;
  li_piv : forall l, (l < k)%nat -> (l <= nth l (f_piv s) O < n)%nat;
  li_fac : exists sg : nat -> nat,
    (forall i, (i < n)%nat -> (sg i < n)%nat) /\
    (forall r, (r < n)%nat -> exists i, (i < n)%nat /\ sg i = r) /\
    (forall c, (c < n)%nat -> (forall l, (l < c)%nat -> (l < k)%nat -> nth l (f_piv s) O = l) -> sg c = if (c <? k)%nat then nth c (f_piv s) O else c) /\
    (forall i j, (i < n)%nat -> (j < n)%nat ->
       A (sg i) j = sumf (Nat.min k i) (fun l => mg n (f_vs s) i l * upper k (mg n (f_vs s)) l j) + upper k (mg n (f_vs s)) i j)
}.

Lemma tr_lt a b i n : (a < n)%nat -> (b < n)%nat -> (i < n)%nat -> (tr a b i < n)%nat.
Proof. intros. unfold tr. nat_cases; lia. Qed.

Lemma tr_invol a b i : tr a b (tr a b i) = i.
Proof. unfold tr. nat_cases; subst; auto. Qed.

(** Determinant of elimination: one row at a time. *)
Lemma det_elim_step n k V : (k < n)%nat -> V k k <> 0 -> det n (upper (S k) (elim k V)) = det n (upper k V).
Proof.
  intros Hk Hp.
  (* rows k+1 .. c-1 done *)
  assert (Hgen : forall c, (S k <= c <= n)%nat ->
    det n (fun i j => if (i <? c)%nat then upper (S k) (elim k V) i j else upper k V i j) = det n (upper k V)).
  { intros c. induction c as [|c IH]; intros Hc; [lia|].
    destruct (Nat.eq_dec c k) as [->|Hck].
    - apply det_ext. intros i j Hi Hj. unfold upper, elim. nat_cases; cbn [andb]; try reflexivity; lia.
    - rewrite <- IH by lia.
      rewrite <- (det_add_row n (fun i j => if (i <? c)%nat then upper (S k) (elim k V) i j else upper k V i j) c k (- (V c k / V k k))) by lia.
      apply det_ext. intros i j Hi Hj. unfold upper, elim. nat_cases; subst; cbn [andb]; try reflexivity; try lia; try (field; assumption); try ring. }
  rewrite <- (Hgen n) by lia. apply det_ext. intros i j Hi Hj. now rewrite (proj2 (Nat.ltb_lt i n)).
Qed.

Lemma col_dec n k (V : nat -> nat -> R) : (exists i, (k <= i < n)%nat /\ V i k <> 0) \/ (forall i, (k <= i < n)%nat -> V i k = 0).
Proof.
  induction n as [|n IH]; [right; intros; lia|]. destruct IH as [(i & Hi & Hn)|Hz]; [left; exists i; split; [lia|assumption]|].
  destruct (Req_dec (V n k) 0) as [E|E].
  - right. intros i Hi. destruct (Nat.eq_dec i n) as [->|]; [assumption|]. apply Hz. lia.
  - destruct (Nat.lt_ge_cases n k).
    + right. intros; lia.
    + left. exists n. split; [lia|assumption].
Qed.

Lemma row_dec n (v : nat -> R) : (exists j, (j < n)%nat /\ v j <> 0) \/ (forall j, (j < n)%nat -> v j = 0).
Proof.
  destruct (col_dec n 0 (fun i _ => v i)) as [(i & Hi & Hn)|Hz].
  - left. exists i. split; [lia|assumption].
  - right. intros j Hj. apply Hz. lia.
Qed.

Lemma factorStep_ok n A k s : (k < n)%nat -> det n A <> 0 -> lu_inv n A k s ->
  exists s', factorStep n k s = Some s' /\ lu_inv n A (S k) s'.
Proof.
  intros Hk HA [L Lv Lp Hv Hdet Hdiag Hpiv (sg & Hsg & Hsurj & Hid & Hfac)].
  set (V := mg n (f_vs s)) in *.
  assert (Hcol : exists i, (k <= i < n)%nat /\ V i k <> 0).
  { destruct (col_dec n k V) as [|Hz]; [assumption|]. exfalso. apply HA. rewrite Hdet.
    rewrite (det_dead_column n k (upper k V)); [ring|assumption| |].
    - intros i j Hi Hj Hji. unfold upper. nat_cases. reflexivity.
    - intros i Hi. unfold upper. destruct (Nat.ltb_spec k k); [lia|]. cbn [andb]. apply Hz; lia. }
  destruct (pivotSearch_ok n k (f_vs s) (f_vv s) (f_imax s)) as (im & Ep & Him & Hpn); try assumption.
  unfold factorStep. rewrite Ep.
  (* the state after the optional swap *)
  assert (Hswap : exists vs1 vv1, 
     (if negb (k =? im)%nat then
       do vs <- swapRows n k im (f_vs s); do v <- rd (f_vv s) k; do vv <- wr (f_vv s) im v; Some (vs, vv, - f_d s)
      else Some (f_vs s, f_vv s, f_d s)) = Some (vs1, vv1, if (k =? im)%nat then f_d s else - f_d s) /\
     List.length vs1 = (n * n)%nat /\ List.length vv1 = n /\ (forall i, (i < n)%nat -> 0 < nth i vv1 0) /\
     (forall i j, (i < n)%nat -> (j < n)%nat -> mg n vs1 i j = V (tr k im i) j)).
  { destruct (Nat.eqb_spec k im) as [<-|Hne]; cbn [negb].
    - exists (f_vs s), (f_vv s). repeat split; try assumption.
      intros i j Hi Hj. unfold tr. nat_cases; subst; reflexivity.
    - destruct (swapRows_ok n k im (f_vs s)) as (vs1 & E1 & L1 & H1); try (assumption || lia). rewrite E1.
      rewrite (rd_nth (f_vv s) k 0) by lia.
      destruct (wr_some (f_vv s) im (nth k (f_vv s) 0) 0) as (vv1 & E2 & L2 & H2); [lia|]. rewrite E2.
      exists vs1, vv1. repeat split; try (assumption || lia).
      intros i Hi. rewrite H2. destruct (i =? im)%nat; apply Hv; lia. }
  destruct Hswap as (vs1 & vv1 & Es & L1 & Lv1 & Hv1 & HV1). rewrite Es.
  destruct (wr_some (f_piv s) k im O) as (piv1 & Epv & Lpv & Hpv); [lia|]. rewrite Epv.
  rewrite (rd_mg n vs1 k k) by assumption.
  assert (Etr : tr k im k = im) by (unfold tr; now rewrite Nat.eqb_refl).
  assert (Hp1 : mg n vs1 k k <> 0) by (rewrite HV1, Etr by assumption; exact Hpn).
  rewrite (proj2 (Reqb_false _ _) Hp1).
  destruct (eliminate_ok n k vs1) as (vs2 & Ee & L2 & HV2); try assumption. rewrite Ee.
  eexists. split; [reflexivity|].
  set (V1 := mg n vs1) in *. set (V2 := mg n vs2) in *.
  constructor; cbn [f_vs f_vv f_piv f_d]; try assumption; fold V2.
  - lia.
  - (* determinant *)
    rewrite (det_ext n (upper (S k) V2) (upper (S k) (elim k V1))).
    2: { intros i j Hi Hj. unfold upper. rewrite HV2 by assumption. reflexivity. }
    rewrite det_elim_step by assumption. rewrite Hdet.
    assert (Eu : det n (upper k V1) = det n (rows (tr k im) (upper k V))).
    { apply det_ext. intros i j Hi Hj. unfold upper, rows. rewrite HV1 by assumption. unfold tr. nat_cases; cbn [andb]; reflexivity. }
    rewrite Eu. destruct (Nat.eqb_spec k im) as [<-|Hne].
    + f_equal. apply det_ext. intros i j Hi Hj. unfold rows, tr. nat_cases; subst; reflexivity.
    + rewrite det_swap_rows by lia. ring.
  - (* diagonal *)
    intros l Hl. rewrite HV2 by lia. unfold elim. destruct (Nat.ltb_spec k l); [lia|].
    destruct (Nat.eq_dec l k) as [->|]; [assumption|]. unfold V1. rewrite HV1 by lia.
    replace (tr k im l) with l by (unfold tr; nat_cases; reflexivity). apply Hdiag. lia.
  - intros l Hl. rewrite Hpv. destruct (Nat.eqb_spec l k); [subst; lia|]. apply Hpiv. lia.
  - exists (fun i => sg (tr k im i)). split; [|split; [|split]].
    + intros i Hi. apply Hsg. apply tr_lt; lia.
    + intros r Hr. destruct (Hsurj r Hr) as (i & Hi & Ei). exists (tr k im i). rewrite tr_invol. split; [apply tr_lt; lia|assumption].
    + intros c Hc Hall. destruct (Nat.lt_trichotomy c k) as [Hck|[->|Hck]].
      * replace (tr k im c) with c by (unfold tr; nat_cases; reflexivity). rewrite Hid; [|assumption|].
        -- nat_cases; rewrite Hpv; nat_cases; reflexivity.
        -- intros l Hl Hlk. specialize (Hall l Hl ltac:(lia)). rewrite Hpv in Hall. destruct (Nat.eqb_spec l k); [lia|assumption].
      * rewrite Etr, Hid; [|lia|].
        -- nat_cases; try (exfalso; lia). rewrite Hpv, Nat.eqb_refl. reflexivity.
        -- intros l Hl Hlk. specialize (Hall l Hlk ltac:(lia)). rewrite Hpv in Hall. destruct (Nat.eqb_spec l k); [lia|assumption].
      * assert (im = k) by (specialize (Hall k Hck ltac:(lia)); rewrite Hpv, Nat.eqb_refl in Hall; assumption).
        subst im. replace (tr k k c) with c by (unfold tr; nat_cases; subst; reflexivity). rewrite Hid; [|assumption|].
        -- nat_cases; try lia; reflexivity.
        -- intros l Hl Hlk. specialize (Hall l Hl ltac:(lia)). rewrite Hpv in Hall. destruct (Nat.eqb_spec l k); [lia|assumption].
    + intros i j Hi Hj. rewrite Hfac by (try assumption; apply tr_lt; lia).
      assert (Emin : Nat.min k (tr k im i) = Nat.min k i) by (unfold tr; nat_cases).
      rewrite Emin.
      assert (Eu1 : upper k V (tr k im i) j = upper k V1 i j).
      { unfold upper, V1. rewrite HV1 by assumption. unfold tr. nat_cases; cbn [andb]; reflexivity. }
      rewrite Eu1.
      assert (Esum : sumf (Nat.min k i) (fun l => V (tr k im i) l * upper k V l j) =
                     sumf (Nat.min k i) (fun l => V2 i l * upper (S k) V2 l j)).
      { apply sumf_ext. intros l Hl. f_equal.
        - rewrite HV2 by lia. unfold elim, V1. nat_cases; rewrite HV1 by lia; reflexivity.
        - unfold upper. rewrite HV2 by lia. unfold elim, V1. replace l with (tr k im l) at 2 by (unfold tr; nat_cases; reflexivity).
          rewrite <- HV1 by lia. nat_cases; cbn [andb]; reflexivity. }
      rewrite Esum.
      destruct (Nat.lt_ge_cases k i) as [Hki|Hki].
      * replace (Nat.min (S k) i) with (S k) by lia. replace (Nat.min k i) with k by lia. cbn [sumf].
        rewrite Rplus_assoc. f_equal. unfold upper. rewrite !HV2 by lia. unfold elim.
        nat_cases; subst; cbn [andb]; try lia; try ring; try (field; assumption).
      * replace (Nat.min (S k) i) with (Nat.min k i) by lia. f_equal. unfold upper. rewrite HV2 by lia. unfold elim.
        nat_cases; cbn [andb]; try reflexivity; lia.
Qed.

(** ** The whole factorisation *)
Definition lu_ok (n : nat) (A : nat -> nat -> R) (f : luFactors) : Prop :=
  lu_n f = n /\ List.length (lu_vals f) = (n * n)%nat /\ List.length (lu_pivot f) = n /\
  det n A = lu_d f * prodf n (fun i => mg n (lu_vals f) i i) /\
  (forall l, (l < n)%nat -> mg n (lu_vals f) l l <> 0) /\
  (forall l, (l < n)%nat -> (l <= nth l (lu_pivot f) O < n)%nat) /\
  exists sg : nat -> nat,
    (forall i, (i < n)%nat -> (sg i < n)%nat) /\
    (forall r, (r < n)%nat -> exists i, (i < n)%nat /\ sg i = r) /\
    (forall c, (c < n)%nat -> (forall l, (l < c)%nat -> nth l (lu_pivot f) O = l) -> sg c = nth c (lu_pivot f) O) /\
    (forall i j, (i < n)%nat -> (j < n)%nat ->
       A (sg i) j = sumf i (fun l => mg n (lu_vals f) i l * upper n (mg n (lu_vals f)) l j) + upper n (mg n (lu_vals f)) i j).

Lemma luOf_ok m n : shaped m n n -> det n (entry m) <> 0 -> exists f, luOf m = Some f /\ lu_ok n (entry m) f.
Proof.
  intros (H1 & W1 & L1 & N1 & _) HA. unfold luOf. rewrite W1, H1, Nat.eqb_refl. cbn [negb]. unfold factorizeInPlace.
  assert (EA : forall i j, entry m i j = mg n (vals m) i j) by (intros; unfold entry, mg; now rewrite W1).
  destruct (rowScales_ok n (vals m)) as (vv & Ev & Lv & Hv); try assumption.
  { intros i Hi. destruct (row_dec n (fun j => mg n (vals m) i j)) as [|Hz]; [assumption|]. exfalso. apply HA.
    apply (det_zero_row n _ i Hi). intros j Hj. rewrite EA. auto. }
  rewrite Ev.
  destruct (loop_inv (lu_inv n (entry m)) n (factorStep n) {| f_vs := vals m; f_vv := vv; f_imax := 0; f_piv := repeat 0%nat n; f_d := 1 |}) as (s & E & Hs).
  - constructor; cbn [f_vs f_vv f_piv f_d]; try assumption; try (intros; lia).
    + apply repeat_length.
    + rewrite Rmult_1_l. apply det_ext. intros i j _ _. rewrite EA. unfold upper. nat_cases; reflexivity.
    + exists (fun i => i). repeat split; auto.
      * intros r Hr. exists r. auto.
      * intros i j Hi Hj. cbn [Nat.min sumf]. rewrite EA. unfold upper. nat_cases; cbn [andb]; lra.
  - intros k t Hk Ht. now apply factorStep_ok.
  - rewrite E. eexists. split; [reflexivity|]. destruct Hs as [L Lvv Lp _ Hdet Hdiag Hpiv (sg & Hsg & Hsurj & Hid & Hfac)].
    unfold lu_ok. cbn [lu_n lu_vals lu_pivot lu_d]. repeat (split; [assumption||reflexivity|]). split; [|split; [assumption|split; [assumption|]]].
    + rewrite Hdet. f_equal. rewrite det_triangular.
      * apply prodf_ext. intros i Hi. unfold upper. nat_cases; reflexivity.
      * intros i j Hi Hji. unfold upper. nat_cases. reflexivity.
    + exists sg. split; [assumption|]. split; [assumption|]. split.
      { intros c Hc Hall. rewrite Hid; [rewrite (proj2 (Nat.ltb_lt c n)) by assumption; reflexivity|assumption|]. intros l Hl _. auto. }
      intros i j Hi Hj. rewrite Hfac by assumption. replace (Nat.min n i) with i by lia. reflexivity.
Qed.

Lemma determinant_ok m n : shaped m n n -> det n (entry m) <> 0 -> determinant m = Some (det n (entry m)).
Proof.
  intros Hm HA. destruct (luOf_ok m n Hm HA) as (f & E & Hn & L & _ & Hdet & _). unfold determinant. rewrite E.
  unfold luDeterminant. rewrite Hn.
  rewrite Hdet. clear Hdet.
  assert (Hg : forall k, (k <= n)%nat -> loop k (fun i d => do a <- rd (lu_vals f) (i * n + i)%nat; Some (d * a)) (lu_d f) =
     Some (lu_d f * prodf k (fun i => mg n (lu_vals f) i i))).
  { intros k. induction k as [|k IH]; intros Hk; cbn; [f_equal; lra|]. rewrite IH by lia.
    rewrite (rd_mg n) by (assumption || lia). f_equal. ring. }
  apply Hg. lia.
Qed.
