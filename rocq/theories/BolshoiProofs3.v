(** * Cut off Bolshoi files. *)
From Coq Require Import ZArith Reals List Lia Bool.
From Verif Require Export BolshoiProofs2.
Import List ListNotations.
Local Open Scope nat_scope.

(** More bytes after the ones that were used change nothing. *)
Definition strict {A} (f : list Z -> option (A * list Z)) : Prop := forall s a r, f s = Some (a, r) -> forall t, f (s ++ t) = Some (a, r ++ t).
(** ... unless the input was used up. *)
Definition loose {A} (f : list Z -> option (A * list Z)) : Prop := forall s a r, f s = Some (a, r) -> (r = [] \/ forall t, f (s ++ t) = Some (a, r ++ t)) /\ (s = [] -> r = []).

Lemma read_full_ext n s bs r t : read_full n s = (Some bs, r) -> read_full n (s ++ t) = (Some bs, r ++ t).
Proof.
  unfold read_full. destruct (Nat.leb_spec n (length s)) as [H|H]; [|discriminate]. intros E. injection E as <- <-.
  rewrite app_length, (proj2 (Nat.leb_le _ _)) by lia. rewrite firstn_app, skipn_app. replace (n - length s) with 0 by lia. cbn [firstn skipn]. now rewrite app_nil_r.
Qed.

Lemma strict_i32 e : strict (read_i32 e).
Proof.
  intros s a r H t. unfold read_i32 in *. destruct (read_full 4 s) as ([bs|], r') eqn:E; [|discriminate]. injection H as <- <-.
  now rewrite (read_full_ext _ _ _ _ t E).
Qed.
Lemma i32_nil e : read_i32 e [] = None.
Proof. reflexivity. Qed.

Lemma strict_fortran e n : strict (fortran_read e n).
Proof.
  intros s a r H t. unfold fortran_read in *. destruct (read_i32 e s) as [(z, s1)|] eqn:E1; [|discriminate]. rewrite (strict_i32 e _ _ _ E1 t).
  destruct (z =? Z.of_nat n)%Z; [|discriminate]. destruct (read_full n s1) as ([bs|], s2) eqn:E2; [|discriminate]. rewrite (read_full_ext _ _ _ _ t E2).
  destruct (read_i32 e s2) as [(z2, s3)|] eqn:E3; [|discriminate]. rewrite (strict_i32 e _ _ _ E3 t). destruct (z =? z2)%Z; [|discriminate]. now injection H as <- <-.
Qed.

Lemma strict_head p e : strict (bol_head p e).
Proof.
  intros s a r H t. unfold bol_head in *.
  destruct (fortran_read e 45 s) as [(b0, s0)|] eqn:E0; [|discriminate]. rewrite (strict_fortran _ _ _ _ _ E0 t).
  destruct (fortran_read e (list_sum (bh1_layout p)) s0) as [(b1, s1)|] eqn:E1; [|discriminate]. rewrite (strict_fortran _ _ _ _ _ E1 t).
  destruct (fortran_read e (list_sum (bh2_layout p)) s1) as [(b2, s2)|] eqn:E2; [|discriminate]. rewrite (strict_fortran _ _ _ _ _ E2 t).
  destruct (fortran_read e 24 s2) as [(b3, s3)|] eqn:E3; [|discriminate]. rewrite (strict_fortran _ _ _ _ _ E3 t).
  destruct (fortran_read e 4 s3) as [(b4, s4)|] eqn:E4; [|discriminate]. rewrite (strict_fortran _ _ _ _ _ E4 t).
  injection H as <- <-. reflexivity.
Qed.

Lemma loose_block swapper sys e cap buf s er out r : read_block swapper sys e cap buf s = Some (er, out, r) ->
  (r = [] \/ forall t, read_block swapper sys e cap buf (s ++ t) = Some (er, out, r ++ t)) /\ (s = [] -> r = []).
Proof.
  intros H. assert (Hr : r = skipn (Nat.min cap (Nat.min (length buf) (length s))) s).
  { unfold read_block, rd_read in H. destruct (match buf with [] => _ | _ => _ end); [now injection H|]. destruct (is_sys_order sys e); [now injection H|].
    destruct (swapper _); [now injection H|discriminate]. }
  split; [|intros ->; rewrite Hr; apply skipn_nil].
  destruct s as [|z s]; [left; rewrite Hr; apply skipn_nil|]. set (l := z :: s) in *.
  destruct (Nat.le_gt_cases (Nat.min cap (length buf)) (length l)) as [L|L].
  - right. intros t. unfold read_block, rd_read in *. rewrite app_length.
    replace (Nat.min cap (Nat.min (length buf) (length l + length t))) with (Nat.min cap (Nat.min (length buf) (length l))) by lia.
    rewrite firstn_app, skipn_app. set (k := Nat.min cap (Nat.min (length buf) (length l))) in *. replace (k - length l) with 0 by lia. cbn [firstn skipn]. rewrite app_nil_r.
    change (l ++ t) with (z :: (s ++ t)). unfold l in *. destruct buf; cbn iota in *;
      (destruct (is_sys_order sys e); [injection H as <- <- <-; reflexivity|]; destruct (swapper _); [injection H as <- <- <-; reflexivity|discriminate]).
  - left. rewrite Hr. replace (Nat.min cap (Nat.min (length buf) (length l))) with (length l) by lia. apply skipn_all.
Qed.

Lemma loose_part reader w mem lo m :
  (forall n buf s er out r, reader n buf s = Some (er, out, r) -> (r = [] \/ forall t, reader n buf (s ++ t) = Some (er, out, r ++ t)) /\ (s = [] -> r = [])) ->
  loose (read_part reader w mem lo m).
Proof.
  intros HR s a r H. unfold read_part in *. destruct (m <? 0)%Z; [discriminate|]. destruct (w * (lo + Z.to_nat m) <=? length mem); [|discriminate].
  destruct (reader (Z.to_nat m) (firstn (w * Z.to_nat m) (skipn (w * lo) mem)) s) as [((er, out), r')|] eqn:E; [|discriminate]. injection H as <- <-.
  destruct (HR _ _ _ _ _ _ E) as (A & B). split; [|exact B]. destruct A as [A|A]; [now left|]. right. intros t. now rewrite A.
Qed.

Lemma loose_bol sys e cap mem lo m : loose (read_part (read_bolshoi_as_byte sys e cap) 32 mem lo m).
Proof. apply loose_part. intros n buf s er out r. apply loose_block. Qed.
Lemma loose_f32 sys e cap mem lo m : loose (read_part (read_float32_as_byte sys e cap) 4 mem lo m).
Proof. apply loose_part. intros n buf s er out r. apply loose_block. Qed.
Lemma loose_i64 sys e cap mem lo m : loose (read_part (read_int64_as_byte sys e cap) 8 mem lo m).
Proof. apply loose_part. intros n buf s er out r. apply loose_block. Qed.

Lemma loose_three sys e cap mems lo m : loose (read_three sys e cap mems lo m).
Proof.
  intros s a r H. unfold read_three in *. set (body := fun i (st : list (list Z) * list Z) => _) in *.
  assert (HB : forall i ms, loose (fun s => body i (ms, s))).
  { intros i ms s' a' r' H'. unfold body in *. destruct (rd ms i); [|discriminate].
    destruct (read_part _ 4 l lo m s') as [(mem, s1)|] eqn:E; [|discriminate]. destruct (loose_f32 _ _ _ _ _ _ _ _ _ E) as (A & B).
    destruct (wr ms i mem) as [ms'|] eqn:Ew; [|discriminate]. injection H' as <- <-. split; [|exact B]. destruct A as [A|A]; [now left|].
    right. intros t. rewrite A, Ew. reflexivity. }
  clearbody body. generalize dependent r. generalize dependent a. generalize 3 as n. induction n as [|n IH]; intros a r H; cbn [loop] in *.
  - injection H as <- <-. split; [right; reflexivity|auto].
  - destruct (loop n body (mems, s)) as [(ms, s1)|] eqn:E; [|discriminate]. destruct (IH ms s1 eq_refl) as (A & B). destruct (HB n ms s1 a r H) as (C & D).
    split; [|auto]. destruct A as [A|A]; [left; auto|]. destruct C as [C|C]; [now left|]. right. intros t. rewrite A. apply C.
Qed.

Lemma strict_after {A B} (f : list Z -> option (A * list Z)) (g : A -> list Z -> option (B * list Z)) : loose f -> (forall a, strict (g a)) -> (forall a, g a [] = None) ->
  strict (fun s => do r <- f s; let '(a, s) := r in g a s).
Proof.
  intros Hf Hg Hn s b r H t. destruct (f s) as [(a, s1)|] eqn:E; [|discriminate]. destruct (Hf _ _ _ E) as ([A1|A1] & _); [subst s1; rewrite Hn in H; discriminate|].
  rewrite A1. now apply Hg.
Qed.

Lemma bol_groups_ext sys e cap nPart : forall fuel nRead mem s a r, bol_groups fuel sys e cap nPart nRead mem s = Some (a, r) ->
  forall t fuel', fuel <= fuel' -> bol_groups fuel' sys e cap nPart nRead mem (s ++ t) = Some (a, r ++ t).
Proof.
  induction fuel as [|fuel IH]; intros nRead mem s a r H t fuel' Hf; [discriminate|]. destruct fuel' as [|fuel']; [lia|]. cbn [bol_groups] in *.
  destruct (Z.of_nat nRead <? nPart)%Z; [|injection H as <- <-; reflexivity].
  destruct (fortran_read e 4 s) as [(bm, s1)|] eqn:E1; [|discriminate]. rewrite (strict_fortran _ _ _ _ _ E1 t).
  destruct (read_i32 e s1) as [(z, s2)|] eqn:E2; [|discriminate]. rewrite (strict_i32 _ _ _ _ E2 t).
  destruct (read_part _ 32 mem nRead (get_int e bm) s2) as [(mem', s3)|] eqn:E3; [|discriminate].
  destruct (loose_bol _ _ _ _ _ _ _ _ _ E3) as ([A|A] & _); [subst s3; rewrite i32_nil in H; discriminate|]. rewrite A.
  destruct (read_i32 e s3) as [(z', s4)|] eqn:E4; [|discriminate]. rewrite (strict_i32 _ _ _ _ E4 t). apply IH; [exact H|lia].
Qed.

Lemma bolp_groups_ext sys e cap nPart : forall fuel nRead mem s a r, bolp_groups fuel sys e cap nPart nRead mem s = Some (a, r) ->
  forall t fuel', fuel <= fuel' -> bolp_groups fuel' sys e cap nPart nRead mem (s ++ t) = Some (a, r ++ t).
Proof.
  induction fuel as [|fuel IH]; intros nRead mem s a r H t fuel' Hf; [discriminate|]. destruct fuel' as [|fuel']; [lia|]. cbn [bolp_groups] in *.
  destruct (Z.of_nat nRead <? nPart)%Z; [|injection H as <- <-; reflexivity]. destruct mem as (((xm, vm), wm), im).
  destruct (fortran_read e 4 s) as [(bm, s1)|] eqn:E1; [|discriminate]. rewrite (strict_fortran _ _ _ _ _ E1 t).
  destruct (read_i32 e s1) as [(z, s2)|] eqn:E2; [|discriminate]. rewrite (strict_i32 _ _ _ _ E2 t).
  destruct (read_three sys e cap xm nRead (get_int e bm) s2) as [(xm', s3)|] eqn:E3; [|discriminate].
  destruct (loose_three _ _ _ _ _ _ _ _ _ E3) as ([A|A] & _); [subst s3; rewrite i32_nil in H; discriminate|]. rewrite A. clear A.
  destruct (read_i32 e s3) as [(z', s4)|] eqn:E4; [|discriminate]. rewrite (strict_i32 _ _ _ _ E4 t).
  destruct (read_i32 e s4) as [(z2, s5)|] eqn:E5; [|discriminate]. rewrite (strict_i32 _ _ _ _ E5 t).
  destruct (read_three sys e cap vm nRead (get_int e bm) s5) as [(vm', s6)|] eqn:E6; [|discriminate].
  destruct (loose_three _ _ _ _ _ _ _ _ _ E6) as ([A|A] & _); [subst s6; rewrite i32_nil in H; discriminate|]. rewrite A. clear A.
  destruct (read_i32 e s6) as [(z3, s7)|] eqn:E7; [|discriminate]. rewrite (strict_i32 _ _ _ _ E7 t).
  destruct (read_i32 e s7) as [(z4, s8)|] eqn:E8; [|discriminate]. rewrite (strict_i32 _ _ _ _ E8 t).
  destruct (read_part _ 4 wm nRead (get_int e bm) s8) as [(wm', s9)|] eqn:E9; [|discriminate].
  destruct (read_part _ 8 im nRead (get_int e bm) s9) as [(im', s10)|] eqn:E10; [|discriminate].
  destruct (loose_i64 _ _ _ _ _ _ _ _ _ E10) as ([A|A] & A0); [subst s10; rewrite i32_nil in H; discriminate|].
  destruct (loose_f32 _ _ _ _ _ _ _ _ _ E9) as ([B|B] & _); [rewrite (A0 B), i32_nil in H; discriminate|]. rewrite B, A.
  destruct (read_i32 e s10) as [(z5, s11)|] eqn:E11; [|discriminate]. rewrite (strict_i32 _ _ _ _ E11 t). apply IH; [exact H|lia].
Qed.

Lemma cut_bolshoi F sys e cap stale bw0 comment h1 h2 bnd K Nx Ny Nz groups k :
  (forall n, length (stale n) = n) -> bol_good false comment h1 h2 bnd K Nx Ny Nz groups -> Forall (fun g => g <> []) groups ->
  32 * length (concat groups) <= cap -> k < length (bolshoi_file e comment h1 h2 bnd groups) ->
  read_bolshoi F sys e cap stale bw0 (firstn k (bolshoi_file e comment h1 h2 bnd groups)) = None.
Proof.
  intros Hst G Hne Hcap Hk. set (file := bolshoi_file e comment h1 h2 bnd groups) in *. set (pre := firstn k file). set (t := skipn k file).
  assert (Ht : t <> []). { intros E. apply (f_equal (@length Z)) in E. unfold t in E. rewrite skipn_length in E. cbn in E. lia. }
  assert (Ef : file = pre ++ t) by (unfold pre, t; now rewrite firstn_skipn).
  assert (Hl : length pre <= length file) by (rewrite Ef, app_length; lia).
  unfold read_bolshoi. destruct (bol_head false e pre) as [(((a1, a2), n), s)|] eqn:E1; [|reflexivity].
  pose proof (strict_head _ _ _ _ _ E1 t) as E1'. rewrite <- Ef in E1'.
  destruct G as [G1 G2 G3 G4 G5 G6 G7 G8 G9 G10 G11 G12 G13].
  assert (Eh : bol_head false e file = Some (h1, h2, Z.of_nat (length (concat groups)), flat_map (fun g => frecord e (put_int e 4 (Z.of_nat (length g))) ++ frecord e (pbytes e g)) groups ++ [])).
  { unfold file, bolshoi_file. rewrite (bol_head_ok _ _ _ _ _ _ _ _ G1 G2 G3 G4 G12).
    rewrite app_nil_r. do 2 f_equal. apply flat_map_ext. intros g. now rewrite pbytes_file. }
  rewrite Eh in E1'. injection E1' as <- <- <- Es. rewrite (proj2 (Z.ltb_ge _ _)) by lia. rewrite Nat2Z.id.
  destruct (bol_groups _ _ _ _ _ _ _ s) as [(mem, r)|] eqn:E2; [|reflexivity].
  pose proof (bol_groups_ext _ _ _ _ _ _ _ _ _ _ E2 t (S (length file)) ltac:(lia)) as E2'. rewrite <- Es in E2'.
  destruct (bol_groups_ok sys e cap [] groups (S (length file)) [] (stale (32 * length (concat groups)))) as (tail & r' & Eg & _ & Hr); auto.
  { rewrite Hst. lia. }
  { pose proof (groups_fuel (fun g => frecord e (pbytes e g)) e groups [] (bol_start false e comment h1 h2 bnd (length (concat groups)))) as L.
    unfold file, bolshoi_file. rewrite app_nil_r in L. rewrite (flat_map_ext _ (fun g => frecord e (put_int e 4 (Z.of_nat (length g))) ++ frecord e (pbytes e g))) by (intros g; now rewrite pbytes_file). exact L. }
  change (pbytes sys []) with (@nil Z) in Eg. cbn [length plus app] in Eg. rewrite Eg in E2'. rewrite (Hr Hne) in E2'. injection E2' as _ E.
  symmetry in E. apply app_eq_nil in E. tauto.
Qed.

Lemma cut_bolshoiP F sys e cap stale sx sv comment h1 h2 bnd K Nx Ny Nz groups k :
  (forall i n, length (stale i n) = n) -> bol_good true comment h1 h2 bnd K Nx Ny Nz groups -> Forall (fun g => g <> []) groups ->
  8 * length (concat groups) <= cap -> k < length (bolshoiP_file e comment h1 h2 bnd groups) ->
  read_bolshoiP F sys e cap stale sx sv (firstn k (bolshoiP_file e comment h1 h2 bnd groups)) = None.
Proof.
  intros Hst G Hne Hcap Hk. set (file := bolshoiP_file e comment h1 h2 bnd groups) in *. set (pre := firstn k file). set (t := skipn k file).
  assert (Ht : t <> []). { intros E. apply (f_equal (@length Z)) in E. unfold t in E. rewrite skipn_length in E. cbn in E. lia. }
  assert (Ef : file = pre ++ t) by (unfold pre, t; now rewrite firstn_skipn).
  assert (Hl : length pre <= length file) by (rewrite Ef, app_length; lia).
  unfold read_bolshoiP. destruct (bol_head true e pre) as [(((a1, a2), n), s)|] eqn:E1; [|reflexivity].
  pose proof (strict_head _ _ _ _ _ E1 t) as E1'. rewrite <- Ef in E1'.
  destruct G as [G1 G2 G3 G4 G5 G6 G7 G8 G9 G10 G11 G12 G13].
  assert (Eh : bol_head true e file = Some (h1, h2, Z.of_nat (length (concat groups)), flat_map (fun g => frecord e (put_int e 4 (Z.of_nat (length g))) ++ pblock e g) groups ++ [])).
  { unfold file, bolshoiP_file. rewrite (bol_head_ok _ _ _ _ _ _ _ _ G1 G2 G3 G4 G12). now rewrite app_nil_r. }
  rewrite Eh in E1'. injection E1' as <- <- <- Es. rewrite (proj2 (Z.ltb_ge _ _)) by lia. rewrite Nat2Z.id. set (N := length (concat groups)) in *.
  destruct (bolp_groups _ _ _ _ _ _ _ s) as [(mem, r)|] eqn:E2; [|reflexivity].
  pose proof (bolp_groups_ext _ _ _ _ _ _ _ _ _ _ E2 t (S (length file)) ltac:(lia)) as E2'. rewrite <- Es in E2'.
  destruct (bolp_groups_ok sys e cap [] groups (S (length file)) [] (fun i => stale i (4 * N)) (fun i => stale (3 + i) (4 * N)) (stale 6 (4 * N)) (stale 7 (8 * N)))
    as (mx & mv & mw & mi & r' & Eg & _ & _ & _ & _ & Hr); fold N; auto.
  { pose proof (groups_fuel (pblock e) e groups [] (bol_start true e comment h1 h2 bnd (length (concat groups)))) as L.
    unfold file, bolshoiP_file. rewrite app_nil_r in L. exact L. }
  change (pstate sys [] (fun j => stale j (4 * N)) (fun j => stale (3 + j) (4 * N)) (stale 6 (4 * N)) (stale 7 (8 * N)))
    with (map (fun i => stale i (4 * N)) [0; 1; 2], map (fun i => stale i (4 * N)) [3; 4; 5], stale 6 (4 * N), stale 7 (8 * N)) in Eg.
  change (length (@nil particle) + length (concat groups)) with N in Eg. change (length (@nil particle)) with 0 in Eg. rewrite Eg in E2'. rewrite (Hr Hne) in E2'. injection E2' as _ E.
  symmetry in E. apply app_eq_nil in E. tauto.
Qed.
