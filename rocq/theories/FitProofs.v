(** * Proofs: normal equations, and an inverse of every positive definite matrix. *)
From Coq Require Import Lra Lia.
From Verif Require Import GoBase GoBaseFacts RealBase LoopBase LoopFacts MatModel MatSpec MatProofs MatProofs2 FitModel FitSpec ShellProofs SavgolProofs2 SmoothProofs.
Import List ListNotations.
Local Open Scope R_scope.

(** ** Positive definite matrices have inverses (so the contract of the library can be met) *)
Definition schur (A : nat -> nat -> R) (i j : nat) : R := A (S i) (S j) - A (S i) O * A O (S j) / A O O.
Fixpoint pd_inv (n : nat) (A : nat -> nat -> R) : nat -> nat -> R :=
  match n with
  | O => fun _ _ => 0
  | S m => let a := A O O in let T := pd_inv m (schur A) in
    fun i j => match i, j with
      | O, O => / a + / a * / a * sumf m (fun p => sumf m (fun q => A O (S p) * T p q * A (S q) O))
      | O, S q => - / a * sumf m (fun p => A O (S p) * T p q)
      | S p, O => - / a * sumf m (fun q => T p q * A (S q) O)
      | S p, S q => T p q
      end
  end.

Lemma posdef_pivot m A : posdef (S m) A -> 0 < A O O.
Proof.
  intros [_ H]. specialize (H (fun i => match i with O => 1 | _ => 0 end)).
  assert (E : sumf (S m) (fun i => sumf (S m) (fun j => (match i with O => 1 | _ => 0 end) * A i j * (match j with O => 1 | _ => 0 end))) = A O O).
  { rewrite (sumf_single _ O); [|lia|intros [|i] Hi Hn; [easy|]; apply sumf_0; intros; ring].
    rewrite (sumf_single _ O); [ring|lia|intros [|i] Hi Hn; [easy|]; ring]. }
  rewrite <- E. apply H. exists O. split; [lia|lra].
Qed.

Lemma posdef_schur m A : posdef (S m) A -> posdef m (schur A).
Proof.
  intros HA. pose proof (posdef_pivot m A HA) as Ha. destruct HA as [Hs Hp]. split.
  - intros i j Hi Hj. unfold schur. rewrite (Hs (S i) (S j)), (Hs (S i) O), (Hs O (S j)) by lia. field. lra.
  - intros v (k & Hk & Hv). set (w0 := - / A O O * sumf m (fun j => A O (S j) * v j)).
    specialize (Hp (fun i => match i with O => w0 | S p => v p end)).
    assert (Hpos : 0 < sumf (S m) (fun i => sumf (S m) (fun j => (match i with O => w0 | S p => v p end) * A i j * (match j with O => w0 | S p => v p end)))).
    { apply Hp. exists (S k). split; [lia|exact Hv]. }
    rewrite sumf_head, sumf_head in Hpos.
    assert (E1 : sumf m (fun j => w0 * A O (S j) * v j) = w0 * sumf m (fun j => A O (S j) * v j)).
    { rewrite <- sumf_scal. apply sumf_ext. intros; ring. }
    rewrite E1 in Hpos. clear E1.
    assert (E2 : sumf m (fun i => sumf (S m) (fun j => v i * A (S i) j * (match j with O => w0 | S p => v p end))) =
                 w0 * sumf m (fun i => A O (S i) * v i) + sumf m (fun i => sumf m (fun j => v i * A (S i) (S j) * v j))).
    { rewrite <- sumf_scal, <- sumf_plus. apply sumf_ext. intros i Hi. rewrite sumf_head. rewrite (Hs (S i) O) by lia. ring. }
    rewrite E2 in Hpos. clear E2.
    set (q := sumf m (fun j => A O (S j) * v j)) in *.
    assert (E3 : sumf m (fun i => sumf m (fun j => v i * schur A i j * v j)) =
                 sumf m (fun i => sumf m (fun j => v i * A (S i) (S j) * v j)) - / A O O * (q * q)).
    { assert (Eq : / A O O * (q * q) = sumf m (fun i => sumf m (fun j => v i * (A (S i) O * A O (S j) / A O O) * v j))).
      { unfold q at 1. rewrite Rmult_comm, Rmult_assoc, Rmult_comm, <- sumf_scal. apply sumf_ext. intros i Hi.
        rewrite (Hs (S i) O) by lia.
        replace (sumf m (fun j => v i * (A O (S i) * A O (S j) / A O O) * v j)) with (v i * A O (S i) * / A O O * q).
        2: { unfold q. rewrite <- sumf_scal. apply sumf_ext. intros. field. lra. }
        ring. }
      rewrite Eq.
      assert (Es : sumf m (fun i => sumf m (fun j => v i * schur A i j * v j)) + sumf m (fun i => sumf m (fun j => v i * (A (S i) O * A O (S j) / A O O) * v j)) =
                   sumf m (fun i => sumf m (fun j => v i * A (S i) (S j) * v j))).
      { rewrite <- sumf_plus. apply sumf_ext. intros i Hi. rewrite <- sumf_plus. apply sumf_ext. intros j Hj. unfold schur. ring. }
      lra. }
    rewrite E3. unfold w0 in Hpos.
    replace (- / A O O * q * A O O * (- / A O O * q) + - / A O O * q * q + (- / A O O * q * q + sumf m (fun i => sumf m (fun j => v i * A (S i) (S j) * v j))))
      with (sumf m (fun i => sumf m (fun j => v i * A (S i) (S j) * v j)) - / A O O * (q * q)) in Hpos by (field; lra).
    exact Hpos.
Qed.

Lemma pd_inv_left n : forall A, posdef n A -> forall i j, (i < n)%nat -> (j < n)%nat -> sumf n (fun k => pd_inv n A i k * A k j) = delta i j.
Proof.
  induction n as [|m IH]; intros A HA i j Hi Hj; [lia|].
  pose proof (posdef_pivot m A HA) as Ha. pose proof (IH (schur A) (posdef_schur m A HA)) as HT. clear IH.
  rewrite sumf_head. cbn [pd_inv]. set (T := pd_inv m (schur A)) in *. clearbody T.
  assert (HS : forall p k, (p < m)%nat -> (k < m)%nat -> sumf m (fun q => T p q * A (S q) (S k)) =
             delta p k + / A O O * sumf m (fun q => T p q * A (S q) O) * A O (S k)).
  { intros p k Hp Hk. rewrite <- (HT p k Hp Hk).
    replace (/ A O O * sumf m (fun q => T p q * A (S q) O) * A O (S k)) with (sumf m (fun q => (/ A O O * A O (S k)) * (T p q * A (S q) O))) by (rewrite sumf_scal; ring).
    rewrite <- sumf_plus. apply sumf_ext. intros q Hq. unfold schur. field. lra. }
  destruct i as [|p], j as [|k]; cbn [delta Nat.eqb].
  - set (X := sumf m (fun p => sumf m (fun q => A O (S p) * T p q * A (S q) O))).
    replace (sumf m (fun i => - / A O O * sumf m (fun p => A O (S p) * T p i) * A (S i) O)) with (- / A O O * X).
    2: { unfold X. rewrite sumf_exchange, <- sumf_scal. apply sumf_ext. intros q Hq.
         rewrite Rmult_assoc. f_equal. rewrite Rmult_comm, <- sumf_scal. apply sumf_ext. intros; ring. }
    unfold delta. cbn [Nat.eqb]. field. lra.
  - set (X := sumf m (fun p => sumf m (fun q => A O (S p) * T p q * A (S q) O))).
    replace (sumf m (fun i => - / A O O * sumf m (fun p => A O (S p) * T p i) * A (S i) (S k)))
      with (- / A O O * (A O (S k) + / A O O * A O (S k) * X)).
    2: { transitivity (- / A O O * sumf m (fun p => A O (S p) * sumf m (fun q => T p q * A (S q) (S k)))).
         - f_equal. transitivity (sumf m (fun p => A O (S p) * delta p k + / A O O * A O (S k) * (A O (S p) * sumf m (fun q => T p q * A (S q) O)))).
           + rewrite sumf_plus. f_equal.
             * rewrite (sumf_single _ k); [unfold delta; rewrite Nat.eqb_refl; ring|lia|]. intros i Hi' Hn. unfold delta.
               destruct (Nat.eqb_spec i k); [easy|ring].
             * rewrite sumf_scal. f_equal. unfold X. apply sumf_ext. intros p Hp. rewrite <- sumf_scal. apply sumf_ext. intros; ring.
           + apply sumf_ext. intros p Hp. rewrite HS by lia. ring.
         - transitivity (- / A O O * sumf m (fun p => sumf m (fun q => A O (S p) * (T p q * A (S q) (S k))))).
           { f_equal. apply sumf_ext. intros p Hp. now rewrite sumf_scal. }
           rewrite sumf_exchange, <- sumf_scal. apply sumf_ext. intros q Hq. rewrite Rmult_assoc. f_equal.
           rewrite Rmult_comm, <- sumf_scal. apply sumf_ext. intros; ring. }
    unfold delta. cbn [Nat.eqb]. field. lra.
  - unfold delta. cbn [Nat.eqb].
    set (Y := sumf m (fun q => T p q * A (S q) O)). field. lra.
  - rewrite HS by lia. unfold delta. cbn [Nat.eqb]. set (Y := sumf m (fun q => T p q * A (S q) O)). field. lra.
Qed.

Definition table (n : nat) (f : nat -> nat -> R) : list R := map (fun e => f (e / n)%nat (e mod n)%nat) (seq 0 (n * n)).
Lemma table_length n f : length (table n f) = (n * n)%nat.
Proof. unfold table. now rewrite map_length, seq_length. Qed.
Lemma table_nth n f i j : (i < n)%nat -> (j < n)%nat -> sq n (table n f) i j = f i j.
Proof.
  intros Hi Hj. unfold sq, table.
  rewrite (nth_indep _ 0 (f (0 / n) (0 mod n))%nat) by (rewrite map_length, seq_length; nia).
  rewrite (map_nth (fun e => f (e / n)%nat (e mod n)%nat)), seq_nth by nia. cbn [Nat.add].
  replace ((i * n + j) / n)%nat with i by (apply (Nat.div_unique _ n i j); lia).
  replace ((i * n + j) mod n)%nat with j by (apply (Nat.mod_unique _ n i j); lia). reflexivity.
Qed.

Definition pd_inverse (n : nat) (A : list R) : list R := table n (pd_inv n (sq n A)).
Lemma pd_inverse_ok : inverts_posdef pd_inverse.
Proof.
  intros n A Hn HL HA. split; [apply table_length|]. intros i j Hi Hj. rewrite <- (pd_inv_left n (sq n A) HA i j Hi Hj).
  apply sumf_ext. intros k Hk. unfold pd_inverse. now rewrite table_nth.
Qed.

(** ** Library products *)
Lemma fold_sumf n (f : nat -> R) : fold_left (fun acc q => acc + f q) (seq 0 n) 0 = sumf n f.
Proof. induction n as [|n IH]; [reflexivity|]. rewrite seq_S, fold_left_app, IH. reflexivity. Qed.

Lemma dense_mul_length h p w a b : length (dense_mul h p w a b) = (h * w)%nat.
Proof. unfold dense_mul. now rewrite map_length, seq_length. Qed.
Lemma dense_mul_nth h p w a b i j : (i < h)%nat -> (j < w)%nat ->
  nth (i * w + j) (dense_mul h p w a b) 0 = sumf p (fun q => nth (i * p + q) a 0 * nth (q * w + j) b 0).
Proof.
  intros Hi Hj. unfold dense_mul.
  set (g := fun e => fold_left (fun acc q => acc + nth ((e / w) * p + q) a 0 * nth (q * w + e mod w) b 0) (seq 0 p) 0).
  rewrite (nth_indep _ 0 (g O)) by (rewrite map_length, seq_length; nia). rewrite (map_nth g), seq_nth by nia. cbn [Nat.add]. unfold g.
  replace ((i * w + j) / w)%nat with i by (apply (Nat.div_unique _ w i j); lia).
  replace ((i * w + j) mod w)%nat with j by (apply (Nat.mod_unique _ w i j); lia). apply fold_sumf.
Qed.
