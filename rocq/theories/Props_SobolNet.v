(** * C214: pairs of coordinates of a Sobol sequence *)
From Coq Require Import Reals Lra Lia List Bool NArith ZArith.
From Verif Require Import RealBase LoopBase LoopFacts RandModel RandSpec RandProofs RandProofs2 Props_Sobol.
Import List ListNotations.
Local Open Scope R_scope.

(** ** Specification *)

(** Point t of the run lies in the box of cell i of 2^a in coordinate p and cell i' of 2^b in coordinate q. *)
Definition in_box (ps : list (list R)) (p a i q b i' t : nat) : Prop := in_cell a i (coordinate ps t p) /\ in_cell b i' (coordinate ps t q).

(** The first two arguments are coordinates, the third the defect: boxes of area 2^(defect - j) are to get 2^defect of 2^j points.
    All pairs but (2, 3) and (4, 5). *)
Definition net_pairs : list (nat * nat * nat) := [(0, 1, 1); (0, 2, 2); (0, 3, 2); (0, 4, 1); (0, 5, 2);
  (1, 2, 3); (1, 3, 3); (1, 4, 4); (1, 5, 4); (2, 4, 4); (2, 5, 5); (3, 4, 4); (3, 5, 5)]%nat.

(** ** Proofs *)

(** *** Linear combinations of direction numbers *)
Fixpoint Y (W : nat -> N) (n : nat) : N := match n with O => 0%N | S m => N.lxor (Y W m) (W (zeroIdx (N.of_nat n))) end.

Lemma X_Y k n : X k n = Y (V k) n.
Proof. induction n as [|n IH]; [reflexivity|]. cbn [X Y]. now rewrite IH. Qed.

Lemma Y_lin (f : N -> N) W n : f 0%N = 0%N -> (forall x y, f (N.lxor x y) = N.lxor (f x) (f y)) -> f (Y W n) = Y (fun J => f (W J)) n.
Proof. intros F0 FL. induction n as [|n IH]; [exact F0|]. cbn [Y]. now rewrite FL, IH. Qed.

Lemma Y_xor W W' n : Y (fun J => N.lxor (W J) (W' J)) n = N.lxor (Y W n) (Y W' n).
Proof.
  induction n as [|n IH]; [reflexivity|]. cbn [Y]. rewrite IH. apply N.bits_inj. intros b. rewrite !N.lxor_spec.
  destruct (N.testbit (Y W n) b), (N.testbit (Y W' n) b), (N.testbit (W (zeroIdx (N.of_nat (S n)))) b), (N.testbit (W' (zeroIdx (N.of_nat (S n)))) b); reflexivity.
Qed.

(** *** The holes *)
Definition parity_check (k l b : nat) (f : N -> bool) : bool :=
  forallb (fun J => Bool.eqb (N.testbit (V k J) (N.of_nat b)) (f (V l J))) (seq 0 30).

Lemma parity_run k l b f n : f 0%N = false -> (forall x y, f (N.lxor x y) = xorb (f x) (f y)) -> parity_check k l b f = true -> (N.of_nat n + 1 < 2 ^ 30)%N ->
  N.testbit (X k n) (N.of_nat b) = f (X l n).
Proof.
  intros F0 FL C. induction n as [|n IH]; intros Hn; [cbn [X]; now rewrite F0|]. change (2 ^ 30)%N with 1073741824%N in *. cbn [X]. rewrite N.lxor_spec, FL, IH by lia. f_equal.
  unfold parity_check in C. rewrite forallb_forall in C. apply Bool.eqb_prop, C, in_seq. pose proof (zeroIdx_small (N.of_nat (S n))) as Hz. change (2 ^ 30)%N with 1073741824%N in Hz. lia.
Qed.

Lemma odd_shiftr x e : N.odd (N.shiftr x e) = N.testbit x e.
Proof. rewrite <- N.bit0_odd, N.shiftr_spec by lia. now rewrite N.add_0_l. Qed.

Lemma odd_to_nat x : Nat.odd (N.to_nat x) = N.odd x.
Proof. rewrite <- (N2Nat.id x) at 2. generalize (N.to_nat x). intros n. induction n as [|n IH]; [reflexivity|]. rewrite Nat2N.inj_succ, N.odd_succ, Nat.odd_succ, <- N.negb_odd, <- Nat.negb_odd, IH. reflexivity. Qed.

(** *** Independence of columns over the field of two elements *)
Definition xsum (l : list (bool * N)) : N := fold_right (fun (p : bool * N) acc => N.lxor (if fst p then snd p else 0%N) acc) 0%N l.

(** Elimination; the flags mark the entries that are sums of earlier ones. *)
Fixpoint zeros (fuel : nat) (l : list N) : list bool :=
  match fuel, l with
  | S fuel, v :: r => if N.eqb v 0 then true :: zeros fuel r else let p := N.log2 v in false :: zeros fuel (map (fun w => if N.testbit w p then N.lxor w v else w) r)
  | _, _ => []
  end.

Definition red (v p : N) (q : bool * N) : bool * N := (fst q, if N.testbit (snd q) p then N.lxor (snd q) v else snd q).

Lemma xsum_red v p l : N.testbit v p = true -> exists e : bool, xsum l = N.lxor (xsum (map (red v p) l)) (if e then v else 0%N) /\
  N.testbit (xsum (map (red v p) l)) p = false.
Proof.
  intros Hv. induction l as [|[b w] l (e & E & T)]; [exists false; now split|]. cbn [map xsum fold_right red fst snd]. fold (xsum l). fold (xsum (map (red v p) l)).
  set (R := xsum (map (red v p) l)) in *. rewrite E. destruct b.
  - destruct (N.testbit w p) eqn:Ew.
    + exists (negb e). split; [|rewrite !N.lxor_spec, Ew, Hv, T; reflexivity]. apply N.bits_inj. intros c. rewrite !N.lxor_spec. destruct e; cbn [negb]; destruct (N.testbit w c), (N.testbit R c); rewrite ?N.bits_0; destruct (N.testbit v c); reflexivity.
    + exists e. split; [now rewrite N.lxor_assoc|]. now rewrite N.lxor_spec, Ew, T.
  - exists e. split; [now rewrite !N.lxor_0_l|]. now rewrite N.lxor_0_l.
Qed.

Lemma zeros_sound fuel : forall l, (length l <= fuel)%nat -> (forall k, nth k (zeros fuel (map snd l)) false = true -> nth k (map fst l) false = false) -> xsum l = 0%N -> forall q, In q l -> fst q = false.
Proof.
  induction fuel as [|fuel IH]; intros [|[b v] l] Hl Hk Hx q Hq; cbn [length] in Hl; try contradiction; [lia|]. cbn [map fst snd zeros] in Hk. cbn [xsum fold_right fst snd] in Hx. fold (xsum l) in Hx.
  destruct (N.eqb_spec v 0) as [->|Hv].
  - pose proof (Hk 0%nat eq_refl) as Hb. cbn [nth] in Hb. subst b. rewrite N.lxor_0_l in Hx. destruct Hq as [<-|Hq]; [reflexivity|]. apply (IH l); [lia| |exact Hx|exact Hq]. intros k Hz. exact (Hk (S k) Hz).
  - cbv zeta in Hk. set (p := N.log2 v) in *. assert (Hp : N.testbit v p = true) by (apply N.bit_log2; exact Hv).
    destruct (xsum_red v p l Hp) as (e & E & T). set (l' := map (red v p) l) in *. rewrite E in Hx.
    assert (Hb : xorb b e = false). { assert (Z : N.testbit (N.lxor (if b then v else 0%N) (N.lxor (xsum l') (if e then v else 0%N))) p = false) by (rewrite Hx; apply N.bits_0).
      rewrite !N.lxor_spec, T in Z. destruct b, e; rewrite ?Hp, ?N.bits_0 in Z; try discriminate; reflexivity. }
    assert (Hl0 : xsum l' = 0%N). { apply N.bits_inj. intros c. assert (Z : N.testbit (N.lxor (if b then v else 0%N) (N.lxor (xsum l') (if e then v else 0%N))) c = false) by (rewrite Hx; apply N.bits_0).
      rewrite !N.lxor_spec in Z. rewrite N.bits_0. destruct b, e; try discriminate; rewrite ?N.bits_0 in Z; destruct (N.testbit (xsum l') c), (N.testbit v c); try discriminate; reflexivity. }
    assert (All : forall q, In q l -> fst q = false).
    { intros q' Hq'. assert (Hin : In (red v p q') l') by (apply in_map_iff; exists q'; now split).
      change (fst (red v p q') = false). apply (IH l'); [unfold l'; rewrite map_length; lia| |exact Hl0|exact Hin]. intros k Hz.
      replace (map fst l') with (map fst l) by (unfold l'; rewrite map_map; reflexivity). apply (Hk (S k)). cbn [nth]. rewrite map_map. unfold l' in Hz. rewrite map_map in Hz. exact Hz. }
    destruct Hq as [<-|Hq]; [|now apply All]. cbn [fst].
    assert (Xl : xsum l = 0%N). { clear -All. induction l as [|[b' w] l IH]; [reflexivity|]. cbn [xsum fold_right fst snd]. fold (xsum l). pose proof (All _ (or_introl eq_refl)) as Hb. cbn [fst] in Hb. subst b'. rewrite IH by (intros q Hq; apply All; now right). reflexivity. }
    rewrite E in Xl. rewrite Xl in Hx. rewrite N.lxor_0_r in Hx. destruct b; [contradiction|reflexivity].
Qed.

(** A power of two of its own for every flag. *)
Fixpoint marks (fs : list bool) (w : N) : list N := match fs with [] => [] | true :: fs => w :: marks fs (2 * w)%N | false :: fs => 0%N :: marks fs w end.

Lemma marks_low fs : forall m m' (bs : list bool), (m < m')%N -> N.testbit (xsum (combine bs (marks fs (2 ^ m')))) m = false.
Proof.
  induction fs as [|f fs IH]; intros m m' [|b bs] H; [reflexivity|reflexivity|destruct f; reflexivity|]. destruct f; cbn [marks combine xsum fold_right fst snd]; rewrite N.lxor_spec.
  - rewrite <- N.pow_succ_r'. fold (xsum (combine bs (marks fs (2 ^ N.succ m')))). rewrite IH by lia. destruct b; [rewrite N.pow2_bits_eqb|rewrite N.bits_0; reflexivity]. replace (m' =? m)%N with false by (symmetry; apply N.eqb_neq; lia). reflexivity.
  - fold (xsum (combine bs (marks fs (2 ^ m')))). rewrite IH by lia. destruct b; rewrite N.bits_0; reflexivity.
Qed.

Lemma marks_sound fs : forall m (bs : list bool), xsum (combine bs (marks fs (2 ^ m))) = 0%N -> forall k, nth k fs false = true -> nth k bs false = false.
Proof.
  induction fs as [|f fs IH]; intros m [|b bs] H k Hk; [destruct k; reflexivity|destruct k; discriminate|destruct k; reflexivity|].
  destruct f; cbn [marks combine xsum fold_right fst snd] in H.
  - rewrite <- N.pow_succ_r' in H. fold (xsum (combine bs (marks fs (2 ^ N.succ m)))) in H.
    assert (Hb : b = false). { destruct b; [|reflexivity]. apply (f_equal (fun z => N.testbit z m)) in H. cbv beta in H. rewrite N.lxor_spec, marks_low in H by lia. rewrite N.pow2_bits_true, N.bits_0 in H. discriminate. }
    subst b. rewrite N.lxor_0_l in H. destruct k as [|k]; [reflexivity|]. exact (IH _ bs H k Hk).
  - fold (xsum (combine bs (marks fs (2 ^ m)))) in H. assert (H' : xsum (combine bs (marks fs (2 ^ m))) = 0%N) by (destruct b; rewrite N.lxor_0_l in H; exact H).
    destruct k as [|k]; [discriminate|]. exact (IH _ bs H' k Hk).
Qed.

Lemma marks_lt fs : forall w e J, (w * 2 ^ N.of_nat (length (filter (fun f => f) fs)) <= e)%N -> (0 < w)%N -> (nth J (marks fs w) 0 < e)%N.
Proof.
  assert (P : forall x : nat, (1 <= 2 ^ N.of_nat x)%N) by (intros x; apply N.lt_pred_le, N.neq_0_lt_0, N.pow_nonzero; lia).
  induction fs as [|f fs IH]; intros w e J H Hw; [cbn [marks]; destruct J; cbn [nth]; cbn in H; lia|].
  assert (He : (0 < e)%N) by (specialize (P (length (filter (fun f => f) (f :: fs)))); nia). destruct f; cbn [filter length marks] in *.
  - rewrite Nat2N.inj_succ, N.pow_succ_r' in H. specialize (P (length (filter (fun f => f) fs))). destruct J as [|J]; cbn [nth]; [nia|]. apply IH; nia.
  - destruct J as [|J]; cbn [nth]; [exact He|]. apply IH; assumption.
Qed.

Lemma marks_length fs : forall w, length (marks fs w) = length fs.
Proof. induction fs as [|[] fs IH]; intros w; cbn [marks length]; [reflexivity|now rewrite IH|now rewrite IH]. Qed.

Lemma zeros_length fuel : forall l, length l = fuel -> length (zeros fuel l) = fuel.
Proof. induction fuel as [|fuel IH]; intros [|v l] H; cbn [length] in H; try discriminate; [reflexivity|]. cbn [zeros]. destruct (N.eqb v 0); cbn [length]; rewrite IH; try reflexivity; [lia|rewrite map_length; lia]. Qed.

(** *** The map from the calls of a block to combinations of columns *)
Definition pick (W : nat -> N) (D : N) (j : nat) : list (bool * N) := map (fun J => (N.testbit D (N.of_nat J), W J)) (seq 0 j).

Lemma pick_flip W D : forall j z, xsum (pick W (N.lxor D (2 ^ N.of_nat z)) j) = N.lxor (xsum (pick W D j)) (if (z <? j)%nat then W z else 0%N).
Proof.
  assert (App : forall l l', xsum (l ++ l') = N.lxor (xsum l) (xsum l')).
  { induction l as [|q l IH]; intros l'; [now rewrite N.lxor_0_l|]. cbn [app xsum fold_right]. fold (xsum (l ++ l')). fold (xsum l). now rewrite IH, N.lxor_assoc. }
  intros j z. induction j as [|j IH]; [reflexivity|]. unfold pick in *. rewrite seq_S, !map_app, !App, IH. cbn [Nat.add map xsum fold_right fst snd]. rewrite !N.lxor_0_r, N.lxor_spec, N.pow2_bits_eqb.
  set (A := xsum (map (fun J => (N.testbit D (N.of_nat J), W J)) (seq 0 j))). clearbody A.
  destruct (Nat.eqb_spec z j) as [->|Hne].
  - rewrite N.eqb_refl, Nat.ltb_irrefl, (proj2 (Nat.ltb_lt j (S j))) by lia. rewrite N.lxor_0_r.
    destruct (N.testbit D (N.of_nat j)); cbn [xorb]; apply N.bits_inj; intros c; rewrite !N.lxor_spec, ?N.bits_0; destruct (N.testbit A c), (N.testbit (W j) c); reflexivity.
  - replace (N.of_nat z =? N.of_nat j)%N with false by (symmetry; apply N.eqb_neq; lia). rewrite xorb_false_r.
    destruct (Nat.ltb_spec z j), (Nat.ltb_spec z (S j)); try lia; [|now rewrite !N.lxor_0_r].
    rewrite !N.lxor_assoc. f_equal. apply N.lxor_comm.
Qed.

(** A mask common to all families of columns. *)
Lemma Y_pick j n : forall d, (forall i, (n < i <= n + d)%nat -> (zeroIdx (N.of_nat i) < j)%nat) -> exists D, forall W, Y W (n + d) = N.lxor (Y W n) (xsum (pick W D j)).
Proof.
  induction d as [|d IH]; intros H.
  - exists 0%N. intros W. rewrite Nat.add_0_r. assert (Z : forall k l, xsum (map (fun J => (N.testbit 0 (N.of_nat J), W J)) (seq k l)) = 0%N).
    { intros k l. revert k. induction l as [|l IHl]; intros k; [reflexivity|]. cbn [seq map xsum fold_right fst snd]. rewrite N.bits_0, N.lxor_0_l. apply IHl. }
    unfold pick. now rewrite Z, N.lxor_0_r.
  - destruct IH as [D HD]; [intros i Hi; apply H; lia|]. set (z := zeroIdx (N.of_nat (S (n + d)))). assert (Hz : (z < j)%nat) by (apply H; lia).
    exists (N.lxor D (2 ^ N.of_nat z)). intros W. rewrite pick_flip, (proj2 (Nat.ltb_lt z j) Hz), Nat.add_succ_r. cbn [Y]. fold z. now rewrite HD, N.lxor_assoc.
Qed.

Lemma pick_zero W D j : (forall q, In q (pick W D j) -> fst q = false) -> forall W', xsum (pick W' D j) = 0%N.
Proof.
  intros H W'. assert (G : forall J, In J (seq 0 j) -> N.testbit D (N.of_nat J) = false). { intros J HJ. apply (H (_, W J)). apply in_map_iff. now exists J. }
  unfold pick. clear H. induction (seq 0 j) as [|J l IH]; [reflexivity|]. cbn [map xsum fold_right fst snd]. rewrite G by now left. rewrite N.lxor_0_l. apply IH. intros J' HJ'. apply G. now right.
Qed.

Lemma pick_combine W D j : pick W D j = combine (map (fun J => N.testbit D (N.of_nat J)) (seq 0 j)) (map W (seq 0 j)).
Proof. unfold pick. induction (seq 0 j) as [|J l IH]; [reflexivity|]. cbn [map combine]. now rewrite IH. Qed.

Lemma map_nth_seq (l : list N) : map (fun J => nth J l 0%N) (seq 0 (length l)) = l.
Proof.
  apply (nth_ext _ _ 0%N 0%N); [now rewrite map_length, seq_length|]. intros k Hk. rewrite map_length, seq_length in Hk.
  rewrite (nth_indep _ 0%N (nth 0 l 0%N)) by (rewrite map_length, seq_length; exact Hk). rewrite (map_nth (fun J => nth J l 0%N)), seq_nth by exact Hk. reflexivity.
Qed.

(** Two calls of a block do not agree in the combinations of the columns and of the marks both. *)
Lemma Y_distinct L j c a b : (j <= 30)%nat -> (a < b)%nat -> (c * 2 ^ j <= a + 1)%nat -> (b + 1 < (c + 1) * 2 ^ j)%nat ->
  let W := fun J => nth J (marks (zeros j (map L (seq 0 j))) 1) 0%N in Y L a = Y L b -> Y W a = Y W b -> False.
Proof.
  intros Hj Hab Ha Hb W E E'. destruct (Y_pick j a (b - a)) as [D HD]. { intros i Hi'. apply (block_index j c); [exact Hj|lia]. }
  replace (a + (b - a))%nat with b in HD by lia.
  assert (Z : forall W', Y W' a = Y W' b -> xsum (pick W' D j) = 0%N). { intros W' Eq. pose proof (HD W') as E1. rewrite <- Eq in E1. apply N.bits_inj. intros e. rewrite N.bits_0.
    assert (E2 := f_equal (fun x => N.testbit x e) E1). cbv beta in E2. rewrite N.lxor_spec in E2. destruct (N.testbit (Y W' a) e), (N.testbit (xsum (pick W' D j)) e); try discriminate; reflexivity. }
  assert (All : forall q, In q (pick L D j) -> fst q = false).
  { apply (zeros_sound j); [unfold pick; rewrite map_length, seq_length; lia| |now apply Z].
    replace (map snd (pick L D j)) with (map L (seq 0 j)) by (unfold pick; rewrite map_map; reflexivity).
    replace (map fst (pick L D j)) with (map (fun J => N.testbit D (N.of_nat J)) (seq 0 j)) by (unfold pick; rewrite map_map; reflexivity).
    apply (marks_sound _ 0). transitivity (xsum (pick W D j)); [|apply Z; exact E']. rewrite pick_combine. f_equal. f_equal. change (2 ^ 0)%N with 1%N. unfold W. clear. set (ms := marks (zeros j (map L (seq 0 j))) 1).
    assert (Lm : length ms = j) by (unfold ms; rewrite marks_length; apply zeros_length; now rewrite map_length, seq_length). clearbody ms. subst j. symmetry. apply map_nth_seq. }
  apply (block_distinct 0 j c a b); [lia|exact Hj|exact Hab|exact Ha|exact Hb|]. rewrite !X_Y, (HD (V 0)), (pick_zero L D j All), N.lxor_0_r. reflexivity.
Qed.

Lemma Y_lt W j e c t : (forall J, (J < j)%nat -> (W J < 2 ^ e)%N) -> (forall i, (c < i <= c + t)%nat -> (zeroIdx (N.of_nat i) < j)%nat) -> (Y W c < 2 ^ e)%N -> (Y W (c + t) < 2 ^ e)%N.
Proof.
  intros HW Hz H0. induction t as [|t IH]; [now rewrite Nat.add_0_r|]. rewrite Nat.add_succ_r. cbn [Y]. apply lxor_lt; [apply IH; intros; apply Hz; lia|]. apply HW, Hz. lia.
Qed.

(** *** Boxes *)
Definition pack (a b : nat) (x y w : N) : N := N.lxor x (N.shiftl (N.lxor y (N.shiftl w (N.of_nat b))) (N.of_nat a)).

Lemma shiftr_zero x a : (x < 2 ^ N.of_nat a)%N -> N.shiftr x (N.of_nat a) = 0%N.
Proof. intros H. rewrite N.shiftr_div_pow2. now apply N.div_small. Qed.

Lemma shiftr_shiftl y a : N.shiftr (N.shiftl y a) a = y.
Proof. rewrite N.shiftr_div_pow2, N.shiftl_mul_pow2. apply N.div_mul, N.pow_nonzero. lia. Qed.

Lemma lxor_cancel_r x x' y : N.lxor x y = N.lxor x' y -> x = x'.
Proof. intros H. apply (f_equal (fun z => N.lxor z y)) in H. cbv beta in H. now rewrite !N.lxor_assoc, N.lxor_nilpotent, !N.lxor_0_r in H. Qed.

Lemma join_inj a x x' y y' : (x < 2 ^ N.of_nat a)%N -> (x' < 2 ^ N.of_nat a)%N -> N.lxor x (N.shiftl y (N.of_nat a)) = N.lxor x' (N.shiftl y' (N.of_nat a)) -> x = x' /\ y = y'.
Proof.
  intros Hx Hx' E. assert (Ey : y = y'). { apply (f_equal (fun z => N.shiftr z (N.of_nat a))) in E. cbv beta in E. rewrite !N.shiftr_lxor, !shiftr_shiftl, !shiftr_zero, !N.lxor_0_l in E by assumption. exact E. }
  split; [|exact Ey]. subst y'. now apply lxor_cancel_r in E.
Qed.

Lemma shiftl_lt y a e : (y < 2 ^ N.of_nat e)%N -> (N.shiftl y (N.of_nat a) < 2 ^ N.of_nat (a + e))%N.
Proof. intros H. rewrite N.shiftl_mul_pow2, Nat2N.inj_add, N.pow_add_r, N.mul_comm. apply N.mul_lt_mono_pos_l; [|exact H]. apply N.neq_0_lt_0, N.pow_nonzero. lia. Qed.

Lemma up_lt x a e : (x < 2 ^ N.of_nat a)%N -> (x < 2 ^ N.of_nat (a + e))%N.
Proof. intros H. eapply N.lt_le_trans; [exact H|]. apply N.pow_le_mono_r; lia. Qed.

Lemma pack_lt a b e x y w : (x < 2 ^ N.of_nat a)%N -> (y < 2 ^ N.of_nat b)%N -> (w < 2 ^ N.of_nat e)%N -> (pack a b x y w < 2 ^ N.of_nat (a + b + e))%N.
Proof. intros Hx Hy Hw. unfold pack. rewrite <- Nat.add_assoc. apply lxor_lt; [now apply up_lt|]. apply shiftl_lt. apply lxor_lt; [now apply up_lt|]. now apply shiftl_lt. Qed.

Lemma pack_inj a b x y w x' y' w' : (x < 2 ^ N.of_nat a)%N -> (x' < 2 ^ N.of_nat a)%N -> (y < 2 ^ N.of_nat b)%N -> (y' < 2 ^ N.of_nat b)%N ->
  pack a b x y w = pack a b x' y' w' -> x = x' /\ y = y' /\ w = w'.
Proof. intros Hx Hx' Hy Hy' E. unfold pack in E. apply join_inj in E; try assumption. destruct E as [-> E]. apply join_inj in E; try assumption. tauto. Qed.

Lemma top_lxor a x y : top a (N.lxor x y) = N.lxor (top a x) (top a y).
Proof. apply N.shiftr_lxor. Qed.

Lemma Y_pack a b p q W n : Y (fun J => pack a b (top a (V p J)) (top b (V q J)) (W J)) n = pack a b (top a (X p n)) (top b (X q n)) (Y W n).
Proof.
  unfold pack. rewrite (Y_xor (fun J => top a (V p J)) (fun J => N.shiftl (N.lxor (top b (V q J)) (N.shiftl (W J) (N.of_nat b))) (N.of_nat a))). f_equal.
  - rewrite X_Y. symmetry. apply (Y_lin (top a)); [apply N.shiftr_0_l|apply top_lxor].
  - rewrite <- (Y_lin (fun z => N.shiftl z (N.of_nat a)) (fun J => N.lxor (top b (V q J)) (N.shiftl (W J) (N.of_nat b)))); [|reflexivity|intros; apply N.shiftl_lxor]. f_equal.
    rewrite (Y_xor (fun J => top b (V q J)) (fun J => N.shiftl (W J) (N.of_nat b))). f_equal.
    + rewrite X_Y. symmetry. apply (Y_lin (top b)); [apply N.shiftr_0_l|apply top_lxor].
    + symmetry. apply (Y_lin (fun z => N.shiftl z (N.of_nat b)) W); [apply N.shiftl_0_l|intros; apply N.shiftl_lxor].
Qed.

Definition column (p q a b J : nat) : N := pack a b (top a (V p J)) (top b (V q J)) 0.
Definition flags (p q a b j : nat) : list bool := zeros j (map (column p q a b) (seq 0 j)).

Definition net_check1 (p q e a b : nat) : bool := (length (filter (fun f => f) (flags p q a b (a + b + e))) <=? e)%nat.
Definition net_check (p q e : nat) : bool := forallb (fun a => forallb (fun b => net_check1 p q e a b) (seq 0 (31 - e - a))) (seq 0 (31 - e)).

Lemma net_checked : forallb (fun '(p, q, e) => net_check p q e) net_pairs = true.
Proof. vm_compute. reflexivity. Qed.

(** ** C214 *)

(** The pair (2, 3) of coordinates leaves holes for ever: 8 of the 16 boxes of a quarter by a quarter of the unit square get no point. *)
Theorem C214_pair23_refuted : forall dim n s0 ps s, (4 <= dim <= 6)%nat -> sb_new = Some s0 -> (N.of_nat n + 2 <= 2 ^ 30)%N -> points dim n s0 = Some (ps, s) ->
  forall i i' t, (t < n)%nat -> Nat.odd i <> Nat.odd i' -> ~ in_box ps 2 2 i 3 2 i' t.
Proof.
  intros dim n s0 ps s Hd E0 Hn Ep i i' t Ht Hodd [B1 B2]. destruct (points_run dim n s0 ltac:(lia) E0 Hn) as (ps' & s' & Ep' & _ & H). rewrite Ep in Ep'. injection Ep' as <- <-.
  destruct (H t 2%nat Ht ltac:(lia)) as [E2 R2]. destruct (H t 3%nat Ht ltac:(lia)) as [E3 R3]. rewrite E2 in B1. rewrite E3 in B2.
  apply (top_cell 2 _ ltac:(lia) R2) in B1. apply (top_cell 2 _ ltac:(lia) R3) in B2. subst i i'. apply Hodd. rewrite !odd_to_nat. unfold top. rewrite !odd_shiftr.
  apply (parity_run 2 3 28 (fun x => N.testbit x 28)); [reflexivity|intros; apply N.lxor_spec|vm_compute; reflexivity|]. change (2 ^ 30)%N with 1073741824%N in *. lia.
Qed.
Print Assumptions C214_pair23_refuted.

(** The pair (4, 5): a half in coordinate 4 and an eighth in coordinate 5; the half of every point is determined by its eighth. *)
Theorem C214_pair45_refuted : forall n s0 ps s, sb_new = Some s0 -> (N.of_nat n + 2 <= 2 ^ 30)%N -> points 6 n s0 = Some (ps, s) ->
  forall i i' t, (t < n)%nat -> Nat.odd i <> xorb (Nat.odd i') (Nat.odd (i' / 4)) -> ~ in_box ps 4 1 i 5 3 i' t.
Proof.
  intros n s0 ps s E0 Hn Ep i i' t Ht Hodd [B1 B2]. destruct (points_run 6 n s0 ltac:(lia) E0 Hn) as (ps' & s' & Ep' & _ & H). rewrite Ep in Ep'. injection Ep' as <- <-.
  destruct (H t 4%nat Ht ltac:(lia)) as [E2 R2]. destruct (H t 5%nat Ht ltac:(lia)) as [E3 R3]. rewrite E2 in B1. rewrite E3 in B2.
  apply (top_cell 1 _ ltac:(lia) R2) in B1. apply (top_cell 3 _ ltac:(lia) R3) in B2. subst i i'. apply Hodd.
  replace (N.to_nat (top 3 (X 5 (S t))) / 4)%nat with (N.to_nat (N.shiftr (top 3 (X 5 (S t))) 2)).
  2:{ rewrite N.shiftr_div_pow2. change (2 ^ 2)%N with 4%N. rewrite <- (N2Nat.id (top 3 (X 5 (S t)))) at 1. change 4%N with (N.of_nat 4). rewrite <- Nat2N.inj_div, Nat2N.id. reflexivity. }
  rewrite !odd_to_nat. unfold top. rewrite N.shiftr_shiftr, !odd_shiftr.
  apply (parity_run 4 5 29 (fun x => xorb (N.testbit x 27) (N.testbit x 29))); [reflexivity| |vm_compute; reflexivity|].
  - intros x y. rewrite !N.lxor_spec. destruct (N.testbit x 27), (N.testbit y 27), (N.testbit x 29), (N.testbit y 29); reflexivity.
  - change (2 ^ 30)%N with 1073741824%N in *. lia.
Qed.
Print Assumptions C214_pair45_refuted.

(** Any other pair of coordinates: in every aligned block of 2^j calls each of the boxes of area 2^(e - j), of whatever shape, gets exactly 2^e points. *)
Theorem C214_net_partial : forall dim n s0, (dim <= 6)%nat -> sb_new = Some s0 -> (N.of_nat n + 2 <= 2 ^ 30)%N ->
  exists ps s, points dim n s0 = Some (ps, s) /\ length ps = n /\
    forall p q e, In (p, q, e) net_pairs -> (p < dim)%nat -> (q < dim)%nat -> forall j a b c, (j = a + b + e)%nat -> (2 <= c * 2 ^ j)%nat -> ((c + 1) * 2 ^ j <= n + 2)%nat ->
      forall i i', (i < 2 ^ a)%nat -> (i' < 2 ^ b)%nat ->
        exists ts, NoDup ts /\ length ts = (2 ^ e)%nat /\ forall t, In t ts <-> (t < 2 ^ j)%nat /\ in_box ps p a i q b i' (c * 2 ^ j - 2 + t).
Proof.
  intros dim n s0 Hd E0 Hn. destruct (points_run dim n s0 Hd E0 Hn) as (ps & s & Ep & L & H). exists ps, s. split; [exact Ep|]. split; [exact L|].
  intros p q e Hin Hp Hq j a b c Ej Hc2 Hcn i i' Hi Hi'.
  pose proof net_checked as NC. rewrite forallb_forall in NC. specialize (NC _ Hin). cbv beta iota in NC. clear Hin.
  set (P := (2 ^ j)%nat) in *. assert (HP : (0 < P)%nat) by lia. assert (EP : N.of_nat P = (2 ^ N.of_nat j)%N) by (unfold P; rewrite Nat2N.inj_pow; reflexivity).
  assert (Hj : (j <= 30)%nat). { destruct (Nat.le_gt_cases j 30) as [|Hg]; [assumption|]. exfalso. assert (2 * P <= n + 2)%nat by (destruct c; nia).
    assert (2 ^ 30 < 2 ^ N.of_nat j)%N by (apply N.pow_lt_mono_r; lia). lia. }
  assert (Ind : net_check1 p q e a b = true). { unfold net_check in NC. rewrite forallb_forall in NC. specialize (NC a ltac:(apply in_seq; lia)). rewrite forallb_forall in NC. apply NC, in_seq. lia. }
  clear NC. unfold net_check1 in Ind. rewrite <- Ej in Ind. apply Nat.leb_le in Ind.
  set (W := fun J => nth J (marks (flags p q a b j) 1) 0%N) in *. assert (HW : forall J, (W J < 2 ^ N.of_nat e)%N).
  { intros J. apply marks_lt; [|lia]. rewrite N.mul_1_l. apply N.pow_le_mono_r; lia. }
  set (F := fun t => pack a b (top a (X p (c * P - 1 + t))) (top b (X q (c * P - 1 + t))) (Y W (c * P - 1 + t))).
  set (x := fun t => top a (X p (c * P - 1 + t))) in *. set (y := fun t => top b (X q (c * P - 1 + t))) in *. set (w := fun t => Y W (c * P - 1 + t)) in *.
  assert (Hxy : forall t, (t < P)%nat -> (x t < 2 ^ N.of_nat a)%N /\ (y t < 2 ^ N.of_nat b)%N /\ (w t < 2 ^ N.of_nat e)%N /\
    (in_box ps p a i q b i' (c * P - 2 + t) <-> i = N.to_nat (x t) /\ i' = N.to_nat (y t))).
  { intros t Ht. assert (Ht' : (c * P - 2 + t < n)%nat) by lia. destruct (H _ p Ht' Hp) as [E1 R1]. destruct (H _ q Ht' Hq) as [E2 R2]. unfold x, y, w.
    replace (c * P - 1 + t)%nat with (S (c * P - 2 + t)) by lia. destruct (top_cell a _ ltac:(lia) R1) as [T1 C1]. destruct (top_cell b _ ltac:(lia) R2) as [T2 C2].
    assert (Ea : N.of_nat (2 ^ a) = (2 ^ N.of_nat a)%N) by (rewrite Nat2N.inj_pow; reflexivity). assert (Eb : N.of_nat (2 ^ b) = (2 ^ N.of_nat b)%N) by (rewrite Nat2N.inj_pow; reflexivity).
    split; [lia|]. split; [lia|]. split.
    - apply (Y_lt W 30 (N.of_nat e) 0 (S (c * P - 2 + t))); [intros J _; apply HW| |apply N.neq_0_lt_0, N.pow_nonzero; lia]. intros k Hk. apply zeroIdx_small. change (2 ^ 30)%N with 1073741824%N in *. lia.
    - unfold in_box. rewrite E1, E2, C1, C2. reflexivity. }
  clear H. assert (HF : forall t, (t < P)%nat -> (N.to_nat (F t) < P)%nat).
  { intros t Ht. destruct (Hxy t Ht) as (H1 & H2 & H3 & _). assert (F t < 2 ^ N.of_nat j)%N by (rewrite Ej; apply pack_lt; assumption). lia. }
  assert (Inj : forall t t', (t < P)%nat -> (t' < P)%nat -> F t = F t' -> t = t').
  { assert (Lt : forall t t', (t < t')%nat -> (t' < P)%nat -> F t <> F t').
    { intros t t' Htt Ht' E. destruct (Hxy t ltac:(lia)) as (A1 & A2 & _). destruct (Hxy t' Ht') as (B1 & B2 & _). unfold F in E. apply pack_inj in E; [|exact A1|exact B1|exact A2|exact B2]. destruct E as (G1 & G2 & G3).
      apply (Y_distinct (column p q a b) j c (c * P - 1 + t) (c * P - 1 + t')); [exact Hj|lia|fold P; lia|fold P; lia| |exact G3].
      unfold column. rewrite !(Y_pack a b p q (fun _ => 0%N)). unfold x in G1. unfold y in G2. rewrite G1, G2. f_equal.
      assert (Z : forall m, Y (fun _ => 0%N) m = 0%N) by (intros m; induction m as [|m IHm]; [reflexivity|cbn [Y]; now rewrite IHm]). now rewrite !Z. }
    intros t t' Ht Ht' E. destruct (Nat.lt_trichotomy t t') as [Hl|[Hl|Hl]]; [exfalso; now apply (Lt t t')|exact Hl|exfalso; now apply (Lt t' t)]. }
  assert (ND : NoDup (map (fun t => N.to_nat (F t)) (seq 0 P))).
  { apply (NoDup_nth _ (N.to_nat (F 0%nat))). rewrite map_length, seq_length. intros k l Hk Hl E. rewrite !(map_nth (fun t => N.to_nat (F t))) in E. rewrite !seq_nth in E by assumption. apply Inj; [exact Hk|exact Hl|]. now apply N2Nat.inj. }
  assert (Hall : incl (seq 0 P) (map (fun t => N.to_nat (F t)) (seq 0 P))).
  { apply NoDup_length_incl; [exact ND|rewrite map_length; lia|]. intros z Hz. apply in_map_iff in Hz. destruct Hz as (t & <- & Ht). apply in_seq in Ht. apply in_seq. split; [lia|]. apply HF. lia. }
  assert (Sur : forall v, (v < 2 ^ N.of_nat e)%N -> exists t, (t < P)%nat /\ x t = N.of_nat i /\ y t = N.of_nat i' /\ w t = v).
  { intros v Hv. assert (Ha : (N.of_nat i < 2 ^ N.of_nat a)%N) by (change 2%N with (N.of_nat 2); rewrite <- Nat2N.inj_pow; lia).
    assert (Hb : (N.of_nat i' < 2 ^ N.of_nat b)%N) by (change 2%N with (N.of_nat 2); rewrite <- Nat2N.inj_pow; lia).
    pose proof (pack_lt a b e _ _ _ Ha Hb Hv) as Hlt. rewrite <- Ej in Hlt. assert (Hs : In (N.to_nat (pack a b (N.of_nat i) (N.of_nat i') v)) (seq 0 P)) by (apply in_seq; lia).
    apply Hall, in_map_iff in Hs. destruct Hs as (t & Et & Ht). apply in_seq in Ht. apply N2Nat.inj in Et. exists t. split; [lia|]. destruct (Hxy t ltac:(lia)) as (H1 & H2 & _). apply pack_inj in Et; assumption. }
  set (ts := filter (fun t => N.eqb (x t) (N.of_nat i) && N.eqb (y t) (N.of_nat i')) (seq 0 P)).
  assert (Hts : forall t, In t ts <-> (t < P)%nat /\ x t = N.of_nat i /\ y t = N.of_nat i').
  { intros t. unfold ts. rewrite filter_In, in_seq, andb_true_iff, !N.eqb_eq. intuition lia. }
  assert (NDts : NoDup ts) by apply NoDup_filter, seq_NoDup. exists ts. split; [exact NDts|]. split.
  - assert (NDw : NoDup (map (fun t => N.to_nat (w t)) ts)).
    { apply (NoDup_nth _ (N.to_nat (w 0%nat))). rewrite map_length. intros k l Hk Hl E. rewrite !(map_nth (fun t => N.to_nat (w t))) in E. apply N2Nat.inj in E.
      apply (proj1 (NoDup_nth ts 0%nat) NDts); [exact Hk|exact Hl|]. destruct (proj1 (Hts _) (nth_In ts 0%nat Hk)) as (A1 & A2 & A3). destruct (proj1 (Hts _) (nth_In ts 0%nat Hl)) as (B1 & B2 & B3).
      apply Inj; [exact A1|exact B1|]. change (pack a b (x (nth k ts 0%nat)) (y (nth k ts 0%nat)) (w (nth k ts 0%nat)) = pack a b (x (nth l ts 0%nat)) (y (nth l ts 0%nat)) (w (nth l ts 0%nat))). now rewrite A2, A3, B2, B3, E. }
    assert (Ee : N.of_nat (2 ^ e) = (2 ^ N.of_nat e)%N) by (rewrite Nat2N.inj_pow; reflexivity).
    apply Nat.le_antisymm.
    + rewrite <- (map_length (fun t => N.to_nat (w t)) ts), <- (seq_length (2 ^ e) 0). apply NoDup_incl_length; [exact NDw|]. intros z Hz. apply in_map_iff in Hz. destruct Hz as (t & <- & Ht). apply Hts in Ht. destruct (Hxy t ltac:(tauto)) as (_ & _ & H3 & _). apply in_seq. lia.
    + rewrite <- (map_length (fun t => N.to_nat (w t)) ts), <- (seq_length (2 ^ e) 0) at 1. apply NoDup_incl_length; [apply seq_NoDup|]. intros z Hz. apply in_seq in Hz. destruct (Sur (N.of_nat z) ltac:(lia)) as (t & Ht & A1 & A2 & A3). apply in_map_iff. exists t. split; [rewrite A3; apply Nat2N.id|]. apply Hts. auto.
  - intros t. rewrite Hts. split.
    + intros (Ht & A1 & A2). split; [exact Ht|]. apply Hxy; [exact Ht|]. rewrite A1, A2, !Nat2N.id. auto.
    + intros (Ht & B). split; [exact Ht|]. apply Hxy in B; [|exact Ht]. destruct B as [-> ->]. rewrite !N2Nat.id. auto.
Qed.
Print Assumptions C214_net_partial.

(** Every pair but (2, 3) and (4, 5) is listed. *)
Theorem C214_pairs_listed_partial : forall p q, (p < q < 6)%nat -> (p, q) <> (2, 3)%nat -> (p, q) <> (4, 5)%nat -> exists e, (1 <= e <= 5)%nat /\ In (p, q, e) net_pairs.
Proof.
  assert (G : forallb (fun p => forallb (fun q => (q <=? p)%nat || ((p =? 2)%nat && (q =? 3)%nat) || ((p =? 4)%nat && (q =? 5)%nat) ||
    existsb (fun '(p', q', e) => (p' =? p)%nat && (q' =? q)%nat && (1 <=? e)%nat && (e <=? 5)%nat) net_pairs) (seq 0 6)) (seq 0 6) = true) by (vm_compute; reflexivity).
  intros p q H N1 N2. rewrite forallb_forall in G. specialize (G p ltac:(apply in_seq; lia)). rewrite forallb_forall in G. specialize (G q ltac:(apply in_seq; lia)).
  apply orb_true_iff in G. destruct G as [G|G].
  - exfalso. apply orb_true_iff in G. destruct G as [G|G]; [apply orb_true_iff in G; destruct G as [G|G]; [apply Nat.leb_le in G; lia|]|];
      apply andb_true_iff in G; destruct G as [G1 G2]; apply Nat.eqb_eq in G1; apply Nat.eqb_eq in G2; subst; congruence.
  - apply existsb_exists in G. destruct G as ([[p' q'] e] & Hin & G). rewrite !andb_true_iff in G. destruct G as [[[G1 G2] G3] G4].
    apply Nat.eqb_eq in G1. apply Nat.eqb_eq in G2. apply Nat.leb_le in G3. apply Nat.leb_le in G4. subst p' q'. exists e. auto.
Qed.
Print Assumptions C214_pairs_listed_partial.

Example C214_nonvacuous : exists s0, sb_new = Some s0 /\ exists ps s, points 6 100 s0 = Some (ps, s) /\ Nat.odd 1 <> Nat.odd 2 /\ ~ in_box ps 2 2 1 3 2 2 50 /\
  exists ts, NoDup ts /\ length ts = 2%nat /\ forall t, In t ts <-> (t < 32)%nat /\ in_box ps 0 2 1 1 2 2 (30 + t).
Proof.
  destruct sb_new_at as (s0 & E0 & _). exists s0. split; [exact E0|]. destruct (C214_net_partial 6 100 s0 ltac:(lia) E0 ltac:(cbn; lia)) as (ps & s & Ep & _ & H). exists ps, s. split; [exact Ep|]. split; [discriminate|]. split.
  - apply (C214_pair23_refuted 6 100 s0 ps s ltac:(lia) E0 ltac:(cbn; lia) Ep); [lia|discriminate].
  - destruct (H 0%nat 1%nat 1%nat ltac:(left; reflexivity) ltac:(lia) ltac:(lia) 5%nat 2%nat 2%nat 1%nat eq_refl ltac:(cbn; lia) ltac:(cbn; lia) 1%nat 2%nat ltac:(cbn; lia) ltac:(cbn; lia)) as (ts & H1 & H2 & H3).
    exists ts. split; [exact H1|]. split; [exact H2|]. exact H3.
Qed.
