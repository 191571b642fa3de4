(** * Primality of the factors of 2^128 - 1 by trial division and by Lucas' test (facts used for the period of the xorshift generator; no model code here). *)
From Coq Require Import ZArith NArith Znumtheory Bool Lia FinFun List.
Import ListNotations.
Local Open Scope Z_scope.

(** Odd candidates d, d+2, ... tested one division each. *)
Definition tstep (q : Z) (s : Z * bool) : Z * bool := (fst s + 2, snd s && negb (q mod fst s =? 0)).

Lemma tstep_iter q d n : 0 < d -> fst (Nat.iter n (tstep q) (d, true)) = d + 2 * Z.of_nat n /\
  (snd (Nat.iter n (tstep q) (d, true)) = true -> forall i, 0 <= i < Z.of_nat n -> ~ (d + 2 * i | q)).
Proof.
  intros Hd. induction n as [|n [IH1 IH2]]; cbn [Nat.iter nat_rect]; [cbn [fst snd]; split; [lia|intros; lia]|].
  change (nat_rect _ (d, true) _ n) with (Nat.iter n (tstep q) (d, true)). unfold tstep at 1 3; cbn [fst snd]. rewrite IH1. split; [lia|].
  intros H. apply andb_prop in H as [H1 H2]. intros i Hi. destruct (Z.eq_dec i (Z.of_nat n)) as [->|Hne]; [|apply IH2; [exact H1|lia]].
  apply negb_true_iff, Z.eqb_neq in H2. intros Hdiv. apply H2. now apply Z.mod_divide; [lia|].
Qed.

Lemma odd_prime q b : 1 < q -> 0 < b -> Z.odd q = true -> q < b * b -> (forall d, 1 < d < b -> Z.odd d = true -> ~ (d | q)) -> prime q.
Proof.
  intros Hq Hb0 Ho Hb Hd. apply prime_alt. split; [exact Hq|]. intros n Hn (m & Hm).
  assert (Hodd : Z.odd n = true /\ Z.odd m = true) by (rewrite Hm, Z.odd_mul in Ho; now apply andb_prop in Ho). destruct Hodd as [Hon Hom].
  assert (Hm1 : 1 < m) by nia. destruct (Z_lt_le_dec n b) as [Hl|Hl].
  - apply (Hd n); [lia|exact Hon|]. exists m. exact Hm.
  - apply (Hd m); [destruct (Z_lt_le_dec m b); [lia|exfalso; assert (b * b <= m * n) by (apply Z.mul_le_mono_nonneg; lia); lia]|exact Hom|]. exists n. lia.
Qed.

Lemma iter_N {A} (f : A -> A) n x : N.iter n f x = Nat.iter (N.to_nat n) f x.
Proof. apply N2Nat.inj_iter. Qed.

Lemma trial_prime q n : 1 < q -> Z.odd q = true -> snd (N.iter n (tstep q) (3, true)) = true -> q < (3 + 2 * Z.of_N n) * (3 + 2 * Z.of_N n) -> prime q.
Proof.
  intros H1 H2 H3 H4. apply (odd_prime q (3 + 2 * Z.of_N n)); [exact H1|lia|exact H2|exact H4|]. rewrite iter_N in H3.
  destruct (tstep_iter q 3 (N.to_nat n) ltac:(lia)) as [_ Ht]. specialize (Ht H3). intros d Hd Hod. apply Z.odd_spec in Hod as (j & ->).
  replace (2 * j + 1) with (3 + 2 * (j - 1)) by lia. apply Ht. rewrite N_nat_Z. lia.
Qed.

(** A divisor of a product of primes is the product or divides one of the cofactors. *)
Lemma divisor_of_product ps : Forall prime ps -> forall g, 0 < g -> (g | fold_right Z.mul 1 ps) ->
  g = fold_right Z.mul 1 ps \/ exists p k, In p ps /\ fold_right Z.mul 1 ps = p * k /\ (g | k).
Proof.
  induction 1 as [|p ps Hp Hps IH]; intros g Hg Hdiv; cbn [fold_right] in *.
  - left. apply Z.divide_1_r_nonneg; [lia|exact Hdiv].
  - set (m := fold_right Z.mul 1 ps) in *. destruct (Zdivide_dec p g) as [(g' & Hg')|Hnd].
    + assert (Hp0 : 0 < p) by (destruct Hp; lia). assert (Hm : (g' | m)).
      { destruct Hdiv as (c & Hc). exists c. apply (Z.mul_reg_l _ _ p); [lia|]. rewrite Hc, Hg'. ring. }
      assert (Hg0 : 0 < g') by (destruct (Z_lt_le_dec 0 g') as [Hx|Hx]; [exact Hx|exfalso; assert (g' * p <= 0) by (apply Z.mul_nonpos_nonneg; lia); lia]).
      destruct (IH g' Hg0 Hm) as [Eg | (r & k & Hin & Hk & Hdk)]; [left; rewrite Hg', Eg; ring|]. right. exists r, (p * k). split; [now right|]. split; [rewrite Hk; ring|].
      subst g. rewrite Z.mul_comm. now apply Z.mul_divide_mono_l.
    + right. exists p, m. split; [now left|]. split; [reflexivity|]. apply (Gauss g p m); [exact Hdiv|]. apply rel_prime_sym, prime_rel_prime; assumption.
Qed.

(** ** The order of a point under iteration *)
Lemma iter_mul_fix_gen {A} (f : A -> A) n m v : N.iter n f v = v -> N.iter (m * n) f v = v.
Proof. intros H. induction m as [|m IH] using N.peano_ind; [reflexivity|]. rewrite N.mul_succ_l, N.iter_add. now rewrite H. Qed.

Lemma order_gen {A} (f : A -> A) (x : A) (M : N) (fs : list Z) : Forall prime fs -> Z.of_N M = fold_right Z.mul 1 fs -> N.iter M f x = x ->
  (forall p k, In p fs -> Z.of_N M = p * k -> N.iter (Z.to_N k) f x <> x) -> forall d, (0 < d)%N -> (d < M)%N -> N.iter d f x <> x.
Proof.
  intros Hfs HM Hper Hmv d Hd Hlt Hfix. set (g := N.gcd d M).
  assert (Hg : N.iter g f x = x).
  { destruct (N.gcd_bezout_pos d M Hd) as (a & b & E). fold g in E.
    assert (H1 : N.iter (a * d) f x = x) by now apply iter_mul_fix_gen. rewrite E, N.iter_add in H1. now rewrite (iter_mul_fix_gen f M b x Hper) in H1. }
  assert (Hgd : N.divide g M) by apply N.gcd_divide_r. assert (Hgle : (g <= d)%N) by (apply N.divide_pos_le; [exact Hd|apply N.gcd_divide_l]).
  assert (Hg0 : g <> 0%N) by (unfold g; intros E; apply N.gcd_eq_0_l in E; lia).
  destruct (divisor_of_product fs Hfs (Z.of_N g)) as [E | (p & k & Hin & Hk & (m & Hm))].
  - lia.
  - rewrite <- HM. destruct Hgd as (m & Em). exists (Z.of_N m). now rewrite Em, N2Z.inj_mul.
  - rewrite <- HM in E. apply N2Z.inj in E. lia.
  - rewrite <- HM in Hk. apply (Hmv p k Hin Hk).
    assert (Hp : 0 < p) by (pose proof (proj1 (Forall_forall prime fs) Hfs p Hin) as Hp; destruct Hp; lia).
    assert (0 <= m).
    { destruct (Z_lt_le_dec m 0) as [Hn|]; [|assumption]. exfalso. assert (m * Z.of_N g < 0) by (apply Z.mul_neg_pos; lia). assert (p * k < 0) by (apply Z.mul_pos_neg; lia). lia. }
    rewrite Hm, Z2N.inj_mul by lia. rewrite N2Z.id. now apply iter_mul_fix_gen.
Qed.

(** ** Lucas' test *)
Fixpoint mpow (a n : Z) (p : positive) : Z :=
  match p with xH => a mod n | xO p => (let x := mpow a n p in (x * x) mod n) | xI p => (let x := mpow a n p in (a * ((x * x) mod n)) mod n) end.

Lemma mpow_spec a n p : n <> 0 -> mpow a n p = a ^ Z.pos p mod n.
Proof.
  intros Hn. induction p as [p IH|p IH|]; cbn [mpow]; cbv zeta.
  - rewrite IH, <- Z.mul_mod, Z.mul_mod_idemp_r by assumption. f_equal. replace (Z.pos p~1) with (1 + (Z.pos p + Z.pos p)) by lia. rewrite !Z.pow_add_r by lia. now rewrite Z.pow_1_r.
  - rewrite IH, <- Z.mul_mod by assumption. f_equal. replace (Z.pos p~0) with (Z.pos p + Z.pos p) by lia. now rewrite Z.pow_add_r by lia.
  - now rewrite Z.pow_1_r.
Qed.

Definition mstep (a n x : Z) : Z := (a * x) mod n.
Lemma mstep_iter a n k : 1 < n -> N.iter k (mstep a n) 1 = a ^ Z.of_N k mod n.
Proof.
  intros Hn. induction k as [|k IH] using N.peano_ind; [cbn; rewrite Z.mod_small; lia|].
  rewrite N.iter_succ, IH. unfold mstep. rewrite Z.mul_mod_idemp_r by lia. f_equal. rewrite N2Z.inj_succ, Z.pow_succ_r by lia. reflexivity.
Qed.

Lemma lucas a n fs : 1 < n -> Forall prime fs -> n - 1 = fold_right Z.mul 1 fs -> a ^ (n - 1) mod n = 1 ->
  (forall p k, In p fs -> n - 1 = p * k -> a ^ k mod n <> 1) -> prime n.
Proof.
  intros Hn Hfs Hprod H1 Hmv. set (M := Z.to_N (n - 1)). assert (HM : Z.of_N M = n - 1) by (unfold M; lia). clearbody M.
  assert (Hper : N.iter M (mstep a n) 1 = 1) by (rewrite mstep_iter, HM by lia; exact H1).
  assert (Hord : forall d, (0 < d)%N -> (d < M)%N -> N.iter d (mstep a n) 1 <> 1).
  { apply (order_gen _ _ _ fs Hfs); [lia|exact Hper|]. intros p k Hin Hk.
    assert (Hp : 0 < p) by (pose proof (proj1 (Forall_forall prime fs) Hfs p Hin) as Hp; destruct Hp; lia).
    assert (0 < k) by (destruct (Z_lt_le_dec 0 k); [assumption|exfalso; assert (p * k <= 0) by (apply Z.mul_nonneg_nonpos; lia); lia]).
    rewrite mstep_iter by lia. rewrite Z2N.id by lia. apply (Hmv p k Hin). lia. }
  set (w := fun i => N.iter i (mstep a n) 1) in *.
  assert (Hinv : forall i, (i < M)%N -> (w (M - i)%N * w i) mod n = 1).
  { intros i Hi. unfold w. rewrite !mstep_iter, <- Z.mul_mod by lia. rewrite <- Z.pow_add_r by lia. replace (Z.of_N (M - i) + Z.of_N i) with (n - 1) by lia. exact H1. }
  assert (Hrng : forall i, (i < M)%N -> 0 < w i < n).
  { intros i Hi. pose proof (Hinv i Hi) as E. assert (0 <= w i < n) by (unfold w; rewrite mstep_iter by lia; apply Z.mod_pos_bound; lia).
    destruct (Z.eq_dec (w i) 0) as [E0|]; [|lia]. rewrite E0, Z.mul_0_r, Z.mod_0_l in E; lia. }
  assert (Hinj : forall i j, (i < M)%N -> (j < M)%N -> w i = w j -> i = j).
  { assert (A : forall i j, (i < j)%N -> (j < M)%N -> w i <> w j).
    { intros i j Hij Hj E. apply (Hord (M - j + i)%N); [lia|lia|]. fold (w i) (w j) in *. rewrite N.iter_add. change (N.iter i (mstep a n) 1) with (w i). rewrite E. unfold w.
      rewrite <- N.iter_add. now replace (M - j + j)%N with M by lia. }
    intros i j Hi Hj E. destruct (N.lt_trichotomy i j) as [H|[H|H]]; [|exact H|]; exfalso; [now apply (A i j)|symmetry in E; now apply (A j i)]. }
  assert (Hall : forall u, 0 < u < n -> exists i, (i < M)%N /\ w i = u).
  { intros u Hu. set (f := fun i : nat => (Z.to_nat (w (N.of_nat i)) - 1)%nat).
    assert (Hf : bFun (N.to_nat M) f) by (intros i Hi; unfold f; pose proof (Hrng (N.of_nat i)) as Hr; lia).
    assert (Hs : bSurjective (N.to_nat M) f).
    { apply (bInjective_bSurjective Hf). intros i j Hi Hj E. unfold f in E. pose proof (Hrng (N.of_nat i)). pose proof (Hrng (N.of_nat j)). apply Nat2N.inj, Hinj; lia. }
    destruct (Hs (Z.to_nat u - 1)%nat) as (i & Hi & E); [lia|]. exists (N.of_nat i). split; [lia|]. unfold f in E. pose proof (Hrng (N.of_nat i)). lia. }
  apply prime_alt. split; [exact Hn|]. intros d Hd Hdiv. destruct (Hall d ltac:(lia)) as (i & Hi & E). pose proof (Hinv i Hi) as Hu. rewrite E in Hu.
  assert (H : (d | 1)). { rewrite <- Hu. rewrite Z.mod_eq by lia. apply Z.divide_sub_r; [apply Z.divide_factor_r|now apply Z.divide_mul_l]. }
  apply Z.divide_1_r_nonneg in H; lia.
Qed.

Lemma f2998279 : prime 2998279.
Proof. apply (trial_prime _ 870); [lia|reflexivity|vm_compute; reflexivity|reflexivity]. Qed.

(** 67280421310721 - 1 = 2^8 5 47 373 2998279. *)
Definition big_fs : list Z := [2; 2; 2; 2; 2; 2; 2; 2; 5; 47; 373; 2998279].
Lemma big_fs_prime : Forall prime big_fs.
Proof.
  unfold big_fs. do 8 (constructor; [exact prime_2|]).
  constructor; [apply (trial_prime _ 1); [lia|reflexivity|vm_compute; reflexivity|reflexivity]|].
  constructor; [apply (trial_prime _ 4); [lia|reflexivity|vm_compute; reflexivity|reflexivity]|].
  constructor; [apply (trial_prime _ 10); [lia|reflexivity|vm_compute; reflexivity|reflexivity]|].
  constructor; [exact f2998279|constructor].
Qed.

Definition big_ok (q : Z) : bool := negb (mpow 3 67280421310721 (Z.to_pos (67280421310720 / q)) =? 1).

Lemma big_checks : forallb big_ok [2; 5; 47; 373; 2998279] = true.
Proof. vm_cast_no_check (eq_refl true). Qed.

Lemma big_one : mpow 3 67280421310721 67280421310720 = 1.
Proof. vm_cast_no_check (eq_refl 1). Qed.

Lemma big_factor : prime 67280421310721.
Proof.
  apply (lucas 3 _ big_fs); [lia|exact big_fs_prime|reflexivity| |].
  - change (67280421310721 - 1) with (Z.pos 67280421310720). rewrite <- mpow_spec by lia. exact big_one.
  - intros p k Hin Hk. change (67280421310721 - 1) with 67280421310720 in Hk.
    assert (Hin' : In p [2; 5; 47; 373; 2998279]) by (unfold big_fs in Hin; cbn [In] in *; tauto).
    pose proof (proj1 (forallb_forall big_ok _) big_checks p Hin') as Hb. unfold big_ok in Hb.
    assert (Hp : 0 < p) by (cbn [In] in Hin'; lia).
    assert (Hk' : 67280421310720 / p = k) by (rewrite Hk, Z.mul_comm, Z.div_mul; lia). rewrite Hk' in Hb.
    assert (0 < k) by (destruct (Z_lt_le_dec 0 k); [assumption|exfalso; assert (p * k <= 0) by (apply Z.mul_nonneg_nonpos; lia); lia]).
    apply negb_true_iff, Z.eqb_neq in Hb. rewrite mpow_spec in Hb by lia. now replace (Z.pos (Z.to_pos k)) with k in Hb by lia.
Qed.

(** 2^128 - 1 = 3 5 17 257 641 65537 274177 6700417 67280421310721. *)
Definition factors : list Z := [3; 5; 17; 257; 641; 65537; 274177; 6700417; 67280421310721].

Lemma factors_prime : Forall prime factors.
Proof.
  unfold factors. constructor; [exact prime_3|].
  constructor; [apply (trial_prime _ 1); [lia|reflexivity|vm_compute; reflexivity|reflexivity]|].
  constructor; [apply (trial_prime _ 2); [lia|reflexivity|vm_compute; reflexivity|reflexivity]|].
  constructor; [apply (trial_prime _ 10); [lia|reflexivity|vm_compute; reflexivity|reflexivity]|].
  constructor; [apply (trial_prime _ 20); [lia|reflexivity|vm_compute; reflexivity|reflexivity]|].
  constructor; [apply (trial_prime _ 200); [lia|reflexivity|vm_compute; reflexivity|reflexivity]|].
  constructor; [apply (trial_prime _ 400); [lia|reflexivity|vm_compute; reflexivity|reflexivity]|].
  constructor; [apply (trial_prime _ 2000); [lia|reflexivity|vm_compute; reflexivity|reflexivity]|].
  constructor; [exact big_factor|constructor].
Qed.
