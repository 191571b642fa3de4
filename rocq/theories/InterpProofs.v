(** * Table search (math/interpolate/search.go, spline.go bsearch). *)
From Coq Require Import Lra Psatz.
From Verif Require Import GoBase RealBase InterpModel InterpSpec.
Local Open Scope R_scope.
Local Open Scope list_scope.

Lemma Rleb_true a b : Rleb a b = true <-> a <= b.
Proof. unfold Rleb. destruct (Rle_dec a b); split; intros; [assumption|reflexivity|discriminate|contradiction]. Qed.
Lemma Rleb_false a b : Rleb a b = false <-> b < a.
Proof. unfold Rleb. destruct (Rle_dec a b); split; intros; [discriminate|lra|lra|reflexivity]. Qed.
Lemma Rltb_true a b : Rltb a b = true <-> a < b.
Proof. unfold Rltb. destruct (Rlt_dec a b); split; intros; [assumption|reflexivity|discriminate|contradiction]. Qed.
Lemma Rltb_false a b : Rltb a b = false <-> b <= a.
Proof. unfold Rltb. destruct (Rlt_dec a b); split; intros; [discriminate|lra|lra|reflexivity]. Qed.
Lemma Reqb_true a b : Reqb a b = true <-> a = b.
Proof. unfold Reqb. destruct (Req_EM_T a b); split; intros; [assumption|reflexivity|discriminate|contradiction]. Qed.
Lemma Reqb_false a b : Reqb a b = false <-> a <> b.
Proof. unfold Reqb. destruct (Req_EM_T a b); split; intros; [discriminate|contradiction|assumption|reflexivity]. Qed.

Lemma bindo_some {X Y} (o : option X) (f : X -> option Y) y : bindo o f = Some y -> exists x, o = Some x /\ f x = Some y.
Proof. destruct o; cbn; intros; [eauto|discriminate]. Qed.

Lemma at_nat {A} (l : list A) k : at_ l (Z.of_nat k) = nth_error l k.
Proof. unfold at_. destruct (Z.ltb_spec (Z.of_nat k) 0); [lia|]. rewrite Nat2Z.id. reflexivity. Qed.
Lemma at_toNat {A} (l : list A) i : (0 <= i)%Z -> at_ l i = nth_error l (Z.to_nat i).
Proof. intros. unfold at_. destruct (Z.ltb_spec i 0); [lia|]. reflexivity. Qed.
Lemma at_range {A} (l : list A) i v : at_ l i = Some v -> (0 <= i < Z.of_nat (List.length l))%Z.
Proof.
  unfold at_. destruct (Z.ltb_spec i 0); [discriminate|]. intros E.
  assert (nth_error l (Z.to_nat i) <> None) by congruence. apply nth_error_Some in H0. lia.
Qed.
Lemma at_some {A} (l : list A) i : (0 <= i < Z.of_nat (List.length l))%Z -> exists v, at_ l i = Some v.
Proof.
  intros. rewrite at_toNat by lia. destruct (nth_error l (Z.to_nat i)) eqn:E; [eauto|].
  apply nth_error_None in E. lia.
Qed.

(** x lies between a and b, in the direction of the table. *)
Definition btw (incr : bool) (a x b : R) : Prop := if incr then a <= x <= b else b <= x <= a.

Lemma bloop_spec xs incr x : forall fuel lo hi a b,
  at_ xs lo = Some a -> at_ xs hi = Some b -> btw incr a x b -> (lo < hi)%Z -> (hi - lo <= Z.of_nat fuel)%Z ->
  exists i a' b', bloop fuel xs incr x lo hi = Some i /\ (lo <= i < hi)%Z /\
    at_ xs i = Some a' /\ at_ xs (i + 1) = Some b' /\ btw incr a' x b'.
Proof.
  induction fuel as [|f IH]; intros lo hi a b Ha Hb Hx Hlt Hf; [lia|]. cbn [bloop].
  destruct (Z.ltb_spec 1 (hi - lo)) as [H1|H1].
  - assert (Hm : (lo < Z.quot (lo + hi) 2 < hi)%Z).
    { pose proof (at_range _ _ _ Ha). rewrite Z.quot_div_nonneg by lia.
      pose proof (Z.div_mod (lo + hi) 2 ltac:(lia)). pose proof (Z.mod_pos_bound (lo + hi) 2 ltac:(lia)). lia. }
    set (mid := Z.quot (lo + hi) 2) in *. clearbody mid.
    destruct (at_some xs mid) as [v Hv].
    { pose proof (at_range _ _ _ Ha). pose proof (at_range _ _ _ Hb). lia. }
    rewrite Hv. cbn [bindo].
    destruct (Bool.eqb incr (Rleb v x)) eqn:E.
    + destruct (IH mid hi v b Hv Hb) as (i & a' & b' & H2 & H3 & H4); try lia.
      * unfold btw in *. destruct incr, (Rleb v x) eqn:E2; cbn in E; try discriminate; rewrite ?Rleb_true, ?Rleb_false in E2; lra.
      * exists i, a', b'. split; [exact H2|]. split; [lia|exact H4].
    + destruct (IH lo mid a v Ha Hv) as (i & a' & b' & H2 & H3 & H4); try lia.
      * unfold btw in *. destruct incr, (Rleb v x) eqn:E2; cbn in E; try discriminate; rewrite ?Rleb_true, ?Rleb_false in E2; lra.
      * exists i, a', b'. split; [exact H2|]. split; [lia|exact H4].
  - exists lo, a, b. replace (lo + 1)%Z with hi by lia. repeat split; try assumption; try lia.
Qed.

Lemma goodGuess_spec xs incr x g :
  (goodGuess xs incr x g = Some false) \/
  (exists a b, goodGuess xs incr x g = Some true /\ (0 <= g < Z.of_nat (List.length xs) - 1)%Z /\
     at_ xs g = Some a /\ at_ xs (g + 1) = Some b /\ btw incr a x b).
Proof.
  unfold goodGuess. destruct (Z.leb_spec 0 g); cbn [andb]; [|left; reflexivity].
  destruct (Z.ltb_spec g (Z.of_nat (List.length xs) - 1)); [|left; reflexivity].
  destruct (at_some xs g) as [a Ha]; [lia|]. destruct (at_some xs (g + 1)) as [b Hb]; [lia|].
  rewrite Ha, Hb. cbn [bindo].
  destruct (Bool.eqb (Rleb a x) incr && Bool.eqb (Rleb x b) incr) eqn:E; [right|left; reflexivity].
  exists a, b. repeat split; auto. apply andb_true_iff in E. destruct E as [E1 E2].
  apply Bool.eqb_prop in E1, E2. unfold btw. destruct incr.
  - apply Rleb_true in E1, E2. lra.
  - apply Rleb_false in E1, E2. lra.
Qed.

(** The bracket found, for every guess, table and direction: the end points need only bracket x. *)
Lemma searchGuess_spec g s x a b :
  s_n s = Z.of_nat (List.length (s_xs s)) -> (2 <= s_n s)%Z ->
  at_ (s_xs s) 0 = Some a -> at_ (s_xs s) (s_n s - 1) = Some b -> btw (s_incr s) a x b ->
  exists i a' b', searchGuess g s x = Some i /\ (0 <= i < s_n s - 1)%Z /\
    at_ (s_xs s) i = Some a' /\ at_ (s_xs s) (i + 1) = Some b' /\ btw (s_incr s) a' x b'.
Proof.
  intros Hn H2 Ha Hb Hx. unfold searchGuess.
  destruct (goodGuess_spec (s_xs s) (s_incr s) x g) as [E|(p & q & E & Hg & Hp & Hq & Hbt)]; rewrite E; cbn [bindo].
  - destruct (bloop_spec (s_xs s) (s_incr s) x (S (Z.to_nat (s_n s))) 0 (s_n s - 1) a b Ha Hb Hx) as (i & a' & b' & H3 & H4 & H5); try lia.
    exists i, a', b'. split; [exact H3|]. split; [lia|exact H5].
  - exists g, p, q. split; [reflexivity|]. split; [lia|]. auto.
Qed.

Lemma bsearchGuess_spec g s x a b :
  (2 <= List.length (sp_xs s))%nat ->
  at_ (sp_xs s) 0 = Some a -> at_ (sp_xs s) (Z.of_nat (List.length (sp_xs s)) - 1) = Some b -> btw (sp_incr s) a x b ->
  exists i a' b', bsearchGuess g s x = Some i /\ (0 <= i < Z.of_nat (List.length (sp_xs s)) - 1)%Z /\
    at_ (sp_xs s) i = Some a' /\ at_ (sp_xs s) (i + 1) = Some b' /\ btw (sp_incr s) a' x b'.
Proof.
  intros H2 Ha Hb Hx. unfold bsearchGuess.
  destruct (goodGuess_spec (sp_xs s) (sp_incr s) x g) as [E|(p & q & E & Hg & Hp & Hq & Hbt)]; rewrite E; cbn [bindo].
  - destruct (bloop_spec (sp_xs s) (sp_incr s) x (S (List.length (sp_xs s))) 0 (Z.of_nat (List.length (sp_xs s)) - 1) a b Ha Hb Hx)
      as (i & a' & b' & H3 & H4 & H5); try lia.
    rewrite H3. cbn [bindo]. destruct (Z.eqb_spec i (Z.of_nat (List.length (sp_xs s)) - 1)); [lia|].
    exists i, a', b'. split; [reflexivity|]. split; [lia|exact H5].
  - exists g, p, q. split; [reflexivity|]. split; [lia|]. auto.
Qed.

(** ** Sorted tables *)
Lemma increasing_tl x xs : increasing (x :: xs) -> increasing xs.
Proof. intros H i j a b Hij Ha Hb. apply (H (S i) (S j) a b); [lia|exact Ha|exact Hb]. Qed.

Lemma Rtrunc_pos x : 0 <= x -> (0 <= Rtrunc x)%Z /\ IZR (Rtrunc x) <= x < IZR (Rtrunc x) + 1.
Proof.
  intros H. unfold Rtrunc. destruct (Rle_dec 0 x); [|contradiction].
  destruct (base_Int_part x) as [H1 H2]. split; [|lra].
  apply le_IZR. assert (-1 < IZR (Int_part x)) by lra.
  apply (lt_IZR (-1)) in H0. apply IZR_le. lia.
Qed.

(** search, non-uniform table. *)
Lemma search_spec xs s x a b : s_init xs = Some s -> (2 <= List.length xs)%nat -> increasing xs ->
  nth_error xs 0 = Some a -> nth_error xs (List.length xs - 1) = Some b -> a <= x <= b ->
  exists i a' b', search s x = Some i /\ (0 <= i < Z.of_nat (List.length xs) - 1)%Z /\
    at_ xs i = Some a' /\ at_ xs (i + 1) = Some b' /\ a' <= x <= b'.
Proof.
  intros Hi H2 Hinc Ha Hb Hx. unfold s_init in Hi.
  assert (Ha' : at_ xs 0 = Some a) by exact Ha.
  assert (Hb' : at_ xs (Z.of_nat (List.length xs) - 1) = Some b) by (rewrite at_toNat by lia; rewrite <- Hb; f_equal; lia).
  rewrite Ha', Hb' in Hi. cbn [bindo] in Hi.
  assert (a < b) by (apply (Hinc O (List.length xs - 1)%nat a b); [lia|assumption|assumption]).
  assert (Hd : 0 < (b - a) / IZR (Z.of_nat (List.length xs) - 1)).
  { apply Rdiv_lt_0_compat; [lra|]. apply (IZR_lt 0). lia. }
  apply (proj2 (Rltb_true _ _)) in Hd. rewrite Hd in Hi.
  set (d := (b - a) / IZR (Z.of_nat (List.length xs) - 1)) in *. clearbody d.
  assert (Es : s = {| s_xs := xs; s_x0 := a; s_dx := d; s_lim := b; s_n := Z.of_nat (List.length xs); s_unif := false; s_incr := true |}) by congruence.
  clear Hi.
  destruct (searchGuess_spec (Rtrunc ((x - a) / d)) s x a b) as (i & a' & b' & E & Hr & Hp & Hq & Hbt);
    try (rewrite Es; cbn [s_xs s_n s_incr]; first [assumption|reflexivity|lia|unfold btw; lra]).
  exists i, a', b'. split.
  - unfold search. rewrite <- E. rewrite Es. cbn [s_lim s_x0 s_unif s_xs s_dx].
    rewrite (proj2 (Rltb_false b x)), (proj2 (Rltb_false x a)) by lra. cbn [orb]. rewrite Ha'. reflexivity.
  - rewrite Es in Hr, Hp, Hq, Hbt. cbn [s_xs s_n s_incr] in *. unfold btw in Hbt. auto.
Qed.

Lemma search_outside xs s x a b : s_init xs = Some s ->
  nth_error xs 0 = Some a -> nth_error xs (List.length xs - 1) = Some b -> x < a \/ b < x -> search s x = None.
Proof.
  intros Hi Ha Hb Hx. unfold s_init in Hi.
  assert (0 < List.length xs)%nat by (destruct xs; [discriminate|cbn; lia]).
  assert (Ha' : at_ xs 0 = Some a) by exact Ha.
  assert (Hb' : at_ xs (Z.of_nat (List.length xs) - 1) = Some b) by (rewrite at_toNat by lia; rewrite <- Hb; f_equal; lia).
  rewrite Ha', Hb' in Hi. cbn [bindo] in Hi. unfold search.
  assert (E1 : s_lim s = b) by (inversion Hi; reflexivity). assert (E2 : s_x0 s = a) by (inversion Hi; reflexivity). rewrite E1, E2.
  destruct Hx as [Hx|Hx]; apply (proj2 (Rltb_true _ _)) in Hx; rewrite Hx; rewrite ?orb_true_r; reflexivity.
Qed.

(** search, uniform grid. *)
Lemma search_unif_spec x0 dx n x : 0 < dx -> (2 <= n)%Z -> x0 <= x <= x0 + IZR (n - 1) * dx ->
  exists i, search (s_unifInit x0 dx n) x = Some i /\ (0 <= i < n - 1)%Z /\ x0 + IZR i * dx <= x <= x0 + IZR (i + 1) * dx.
Proof.
  intros Hd Hn Hx. unfold search. cbn [s_lim s_x0 s_unif s_unifInit s_dx s_n].
  rewrite (proj2 (Rltb_false _ x)), (proj2 (Rltb_false x x0)) by lra. cbn [orb].
  set (q := (x - x0) / dx). assert (Hq : x - x0 = q * dx) by (unfold q; field; lra).
  assert (Hq0 : 0 <= q) by (unfold q, Rdiv; apply Rmult_le_pos; [lra|apply Rlt_le, Rinv_0_lt_compat; lra]).
  assert (Hq1 : q <= IZR (n - 1)) by (apply Rmult_le_reg_r with dx; lra).
  destruct (Rtrunc_pos q Hq0) as [T0 T1]. set (t := Rtrunc q) in *. clearbody t q.
  assert (Ht : (t <= n - 1)%Z) by (apply le_IZR; lra).
  destruct (Z.eqb_spec t (n - 1)) as [E|E].
  - exists (t - 1)%Z. split; [reflexivity|]. split; [lia|].
    replace (t - 1 + 1)%Z with t by lia. assert (q = IZR t) by (subst t; lra). rewrite minus_IZR. nra.
  - exists t. split; [reflexivity|]. split; [lia|]. rewrite plus_IZR. nra.
Qed.

Lemma search_unif_outside x0 dx n x : x < x0 \/ x0 + IZR (n - 1) * dx < x -> search (s_unifInit x0 dx n) x = None.
Proof.
  intros Hx. unfold search. cbn [s_lim s_x0 s_unifInit].
  destruct Hx as [Hx|Hx].
  - rewrite (proj2 (Rltb_true x x0)) by lra. rewrite orb_true_r. reflexivity.
  - rewrite (proj2 (Rltb_true (IZR (n - 1) * dx + x0) x)) by lra. reflexivity.
Qed.
