(** * C198: the mean and the median profile of a halo, and the median radius of a shell. *)
From Coq Require Import Reals Lra Lia ZArith List Bool.
From Verif Require Import GoBase RealBase LoopBase LosModel LosSpec LoopFacts LosProofs LosProofs2 LosProofs3 LosProofs4 LosProofs5 LosProofs6 LosProofs7 LosProofs8 LosProofs9 LosProofs10 LosProofs11 ShellProofs ShellModel SortModel SortProofs InterpProofs SortProofs2 MedProfModel ProfAngProofs Props_Sort.
Import List ListNotations.
Local Open Scope R_scope.

(** The densities of bin j on all the lines of sight, ring by ring: [rho ring i] is what GetRhos gives for line i of the ring. *)
Definition column (rings n : nat) (rho : nat -> nat -> list R) (j : nat) : list R := flat_map (fun r => map (fun i => nth j (rho r i) 0) (seq 0 n)) (seq 0 rings).
Definition sum_list (l : list R) : R := fold_right Rplus 0 l.

(** A halo that was made by Init and had any spheres inserted. *)
Definition made (norms : list vec) (bins n : nat) (h : Halo) : Prop :=
  exists o rMin rMax rho0 h0 ss, Forall (fun v : vec3 => dot3 v v = 1) norms /\ (0 < bins)%nat /\ (0 < n)%nat /\ 0 < rMin < rMax /\
    halo_init norms o rMin rMax bins n rho0 = Some h0 /\ halo_inserts h0 ss = Some h.

Lemma made_rhos norms bins n h : made norms bins n h -> h_rings h = length norms /\ h_bins h = bins /\ h_n h = n /\
  exists rho, forall r i, (r < length norms)%nat -> (i < n)%nat -> length (rho r i) = bins /\ forall buf, length buf = bins -> get_rhos h r i buf = Some (rho r i).
Proof.
  intros (o & rMin & rMax & rho0 & h0 & ss & Hu & Hb & Hn & Hr & Hi & Hs).
  destruct (init_conform _ _ _ _ _ _ _ _ Hb Hn Hr Hu Hi) as (C0 & G0 & En & Eo & Em & EM & Ed & _).
  destruct (halo_inserts_adds h0 ss (cf_core _ _ _ _ _ C0)) as (h' & Eh & Gh & Ah). assert (h' = h) by congruence. subst h'.
  assert (Ch := adds_conform _ _ _ _ _ _ _ C0 Gh Ah).
  split; [apply Ch|]. split; [apply Ch|]. split; [apply Ch|].
  exists (fun r i => match get_rhos h r i (repeat 0 bins) with Some b => b | None => [] end). intros r i Hr' Hi'.
  assert (Lp : (r < length (h_profs h0))%nat) by (rewrite (gh_profs h0 (cf_core _ _ _ _ _ C0)), (cf_rings _ _ _ _ _ C0); exact Hr').
  destruct (nth_error (h_profs h0) r) as [p|] eqn:Ep; [|apply nth_error_None in Ep; lia].
  assert (Hi2 : (i < h_n h0)%nat) by (rewrite (cf_n _ _ _ _ _ C0); exact Hi').
  destruct (get_rhos_adds h0 h _ r p i (cf_core _ _ _ _ _ C0) Ah Ep Hi2 (repeat 0 bins)) as (o1 & E1 & L1 & N1); [rewrite repeat_length; symmetry; apply C0|].
  rewrite E1. split; [rewrite L1; apply C0|]. intros buf Lb.
  destruct (get_rhos_adds h0 h _ r p i (cf_core _ _ _ _ _ C0) Ah Ep Hi2 buf) as (o2 & E2 & L2 & N2); [rewrite Lb; symmetry; apply C0|].
  rewrite E2. f_equal. apply nth_ext with (d := 0) (d' := 0); [congruence|]. intros j Hj. rewrite N1, N2 by lia. reflexivity.
Qed.

Lemma mapo_map {A B} (f : A -> option B) (g : A -> B) l : (forall a, In a l -> f a = Some (g a)) -> mapo f l = Some (map g l).
Proof. induction l as [|a l IH]; intros H; [reflexivity|]. cbn [mapo map]. rewrite (H a (or_introl eq_refl)), IH; [reflexivity|]. intros b Hb. apply H. right. exact Hb. Qed.
Lemma in_lines h r i : In (r, i) (lines_of_sight h) <-> (r < h_rings h)%nat /\ (i < h_n h)%nat.
Proof.
  unfold lines_of_sight. rewrite in_flat_map. split.
  - intros (r' & Hr & Hi). apply in_map_iff in Hi. destruct Hi as (i' & E & Hi). injection E as <- <-. apply in_seq in Hr, Hi. lia.
  - intros (Hr & Hi). exists r. split; [apply in_seq; lia|]. apply in_map_iff. exists i. split; [reflexivity|apply in_seq; lia].
Qed.
Lemma map_flat_map {A B C} (f : B -> C) (g : A -> list B) l : map f (flat_map g l) = flat_map (fun a => map f (g a)) l.
Proof. induction l as [|a l IH]; [reflexivity|]. cbn [flat_map]. rewrite map_app, IH. reflexivity. Qed.
Lemma length_column rings n rho j : length (column rings n rho j) = (rings * n)%nat.
Proof.
  unfold column. rewrite <- (seq_length rings 0) at 2. induction (seq 0 rings) as [|r l IH]; [reflexivity|]. cbn [flat_map length Nat.mul]. rewrite app_length, map_length, seq_length, IH. reflexivity.
Qed.

Section Halo.
Variables (norms : list vec) (bins n : nat) (h : Halo) (rho : nat -> nat -> list R).
Hypothesis (Er : h_rings h = length norms) (Eb : h_bins h = bins) (En : h_n h = n).
Hypothesis Hrho : forall r i, (r < length norms)%nat -> (i < n)%nat -> length (rho r i) = bins /\ forall buf, length buf = bins -> get_rhos h r i buf = Some (rho r i).

Lemma column_bufs j : (j < bins)%nat -> mapo (fun b => rd b j) (map (fun ri => rho (fst ri) (snd ri)) (lines_of_sight h)) = Some (column (length norms) n rho j).
Proof.
  intros Hj. rewrite mapo_map with (g := fun b => nth j b 0).
  - f_equal. rewrite map_map. unfold lines_of_sight, column. rewrite map_flat_map, Er, En.
    assert (E : forall l, flat_map (fun a => map (fun x : nat * nat => nth j (rho (fst x) (snd x)) 0) (map (fun i => (a, i)) (seq 0 n))) l = flat_map (fun r => map (fun i => nth j (rho r i) 0) (seq 0 n)) l).
    { intros l. apply flat_map_ext. intros a. rewrite map_map. reflexivity. }
    apply E.
  - intros b Hb. apply in_map_iff in Hb. destruct Hb as ((r, i) & <- & Hl). apply in_lines in Hl. rewrite Er, En in Hl. cbn [fst snd]. apply rd_nth. destruct (Hrho r i) as (L & _); [lia|lia|]. lia.
Qed.
Lemma median_bin_eq j : (j < bins)%nat -> median_bin (map (fun ri => rho (fst ri) (snd ri)) (lines_of_sight h)) j =
  match Median R Rltb (column (length norms) n rho j) (Some (column (length norms) n rho j)) with Some (m, _) => Some m | None => None end.
Proof. intros Hj. unfold median_bin. rewrite (column_bufs j Hj). reflexivity. Qed.
Lemma median_profile_eq : median_profile h = mapo (median_bin (map (fun ri => rho (fst ri) (snd ri)) (lines_of_sight h))) (seq 0 bins).
Proof.
  unfold median_profile. rewrite mapo_map with (g := fun ri => rho (fst ri) (snd ri)); [rewrite Eb; reflexivity|].
  intros (r, i) Hl. apply in_lines in Hl. rewrite Er, En in Hl. cbn [fst snd]. apply Hrho; try lia. rewrite repeat_length. exact Eb.
Qed.
Lemma median_all (P : list R -> R -> Prop) : (0 < length norms * n)%nat ->
  (forall xs, length xs = (length norms * n)%nat -> exists m sc, Median R Rltb xs (Some xs) = Some (m, sc) /\ P xs m) ->
  exists out, median_profile h = Some out /\ length out = bins /\ forall j, (j < bins)%nat -> P (column (length norms) n rho j) (nth j out 0).
Proof.
  intros Hp HM. rewrite median_profile_eq.
  destruct (mapo_spec (median_bin (map (fun ri => rho (fst ri) (snd ri)) (lines_of_sight h))) (seq 0 bins)) as (out & E & L & N).
  { intros j Hj. apply in_seq in Hj. rewrite median_bin_eq by lia. destruct (HM (column (length norms) n rho j)) as (m & sc & -> & _); [apply length_column|]. eauto. }
  exists out. split; [exact E|]. rewrite seq_length in L. split; [exact L|]. intros j Hj.
  assert (Es : nth_error (seq 0 bins) j = Some j). { rewrite (nth_error_nth' _ 0%nat) by (rewrite seq_length; exact Hj). rewrite seq_nth by exact Hj. reflexivity. }
  destruct (N j j Es) as (m & Em & Ef). rewrite median_bin_eq in Ef by exact Hj. destruct (HM (column (length norms) n rho j)) as (m' & sc & E' & HP); [apply length_column|].
  rewrite E' in Ef. injection Ef as <-. erewrite nth_error_nth by exact Em. exact HP.
Qed.

Lemma add_bins_ok mean buf : length mean = bins -> length buf = bins -> exists mean', add_bins mean buf = Some mean' /\ length mean' = bins /\ forall j, (j < bins)%nat -> nth j mean' 0 = nth j mean 0 + nth j buf 0.
Proof.
  intros Lm Lb. unfold add_bins.
  destruct (loop_inv (fun k m => length m = bins /\ forall j, (j < bins)%nat -> nth j m 0 = nth j mean 0 + if (j <? k)%nat then nth j buf 0 else 0) (length buf)
    (fun j mean => do m <- rd mean j; do b <- rd buf j; wr mean j (m + b)) mean) as (m' & E & L & N).
  - split; [exact Lm|]. intros j _. cbn. lra.
  - intros k m Hk (L & N). rewrite (rd_nth m k 0), (rd_nth buf k 0) by lia. destruct (wr_some m k (nth k m 0 + nth k buf 0) 0) as (m' & E & L' & N'); [lia|]. exists m'. split; [exact E|]. split; [congruence|].
    intros j Hj. rewrite N'. destruct (Nat.eqb_spec j k) as [->|e].
    + rewrite N by lia. rewrite Nat.ltb_irrefl, (proj2 (Nat.ltb_lt k (S k))) by lia. lra.
    + rewrite N by lia. destruct (Nat.ltb_spec j k), (Nat.ltb_spec j (S k)); try lia; reflexivity.
  - exists m'. split; [exact E|]. split; [exact L|]. intros j Hj. rewrite N by exact Hj. rewrite (proj2 (Nat.ltb_lt j (length buf))) by lia. reflexivity.
Qed.
Lemma sum_app a b : sum_list (a ++ b) = sum_list a + sum_list b.
Proof. unfold sum_list. induction a as [|x a IH]; cbn [app fold_right]; [lra|]. rewrite IH. lra. Qed.
Lemma mean_ok : exists out, mean_profile h = Some out /\ length out = bins /\ forall j, (j < bins)%nat -> nth j out 0 = sum_list (column (length norms) n rho j) / INR (length norms * n).
Proof.
  unfold mean_profile. rewrite Er, Eb, En.
  destruct (loop_inv (fun k st => length (fst st) = bins /\ length (snd st) = bins /\ forall j, (j < bins)%nat -> nth j (fst st) 0 = sum_list (column k n rho j)) (length norms)
    (fun r => loop n (mean_step h r)) (repeat 0 bins, repeat 0 bins)) as ((mean & buf) & E & L & _ & N).
  - cbn [fst snd]. rewrite repeat_length. split; [reflexivity|]. split; [reflexivity|]. intros j Hj. rewrite nth_repeat. reflexivity.
  - intros r st Hr (L1 & L2 & N).
    destruct (loop_inv (fun k st' => length (fst st') = bins /\ length (snd st') = bins /\ forall j, (j < bins)%nat -> nth j (fst st') 0 = nth j (fst st) 0 + sum_list (map (fun i => nth j (rho r i) 0) (seq 0 k))) n (mean_step h r) st) as (st' & E & L1' & L2' & N').
    + split; [exact L1|]. split; [exact L2|]. intros j Hj. cbn. lra.
    + intros i (m & b) Hi (M1 & M2 & M3). cbn [fst snd] in *. destruct (Hrho r i Hr Hi) as (Lr & Hg). unfold mean_step. rewrite (Hg b M2).
      destruct (add_bins_ok m (rho r i) M1 Lr) as (m' & -> & L' & A). exists (m', rho r i). split; [reflexivity|]. cbn [fst snd]. split; [exact L'|]. split; [exact Lr|].
      intros j Hj. rewrite A, M3 by exact Hj. rewrite seq_S, map_app, sum_app. cbn. lra.
    + exists st'. split; [exact E|]. split; [exact L1'|]. split; [exact L2'|]. intros j Hj. rewrite N', N by exact Hj. unfold column. rewrite (seq_S r 0), flat_map_app, sum_app. cbn [flat_map Nat.add]. rewrite app_nil_r. reflexivity.
  - rewrite E. eexists. split; [reflexivity|]. cbn [fst] in *. rewrite map_length. split; [exact L|]. intros j Hj.
    rewrite (nth_indep _ 0 (0 / INR (length norms * n))) by (rewrite map_length; lia). rewrite (map_nth (fun m => m / INR (length norms * n)) mean 0). rewrite N by exact Hj. reflexivity.
Qed.
End Halo.

(** The mean profile: in every bin the mean of the densities of all lines of sight. *)
Theorem C198_mean : forall norms bins n h, made norms bins n h -> exists rho out, 
  (forall r i buf, (r < length norms)%nat -> (i < n)%nat -> length buf = bins -> get_rhos h r i buf = Some (rho r i)) /\
  mean_profile h = Some out /\ length out = bins /\ forall j, (j < bins)%nat -> nth j out 0 = sum_list (column (length norms) n rho j) / INR (length norms * n).
Proof.
  intros norms bins n h M. destruct (made_rhos _ _ _ _ M) as (Er & Eb & En & rho & H). destruct (mean_ok norms bins n h rho Er Eb En H) as (out & E). exists rho, out. split; [|exact E].
  intros r i buf Hr Hi Hb. apply H; assumption.
Qed.
Print Assumptions C198_mean.
(** The median profile: in every bin a median of the densities of all lines of sight, if their number is even. *)
Theorem C198_median_partial : forall norms bins n h, made norms bins n h -> norms <> [] -> Nat.Even (length norms * n) -> exists rho out,
  (forall r i buf, (r < length norms)%nat -> (i < n)%nat -> length buf = bins -> get_rhos h r i buf = Some (rho r i)) /\
  median_profile h = Some out /\ length out = bins /\ forall j, (j < bins)%nat -> is_median Rltb (column (length norms) n rho j) (nth j out 0).
Proof.
  intros norms bins n h M Hne He. destruct (made_rhos _ _ _ _ M) as (Er & Eb & En & rho & H).
  assert (Hn : (0 < n)%nat) by (destruct M as (? & ? & ? & ? & ? & ? & ? & ? & ? & _); assumption). assert (Hl : (0 < length norms)%nat) by (destruct norms; [congruence|cbn; lia]).
  destruct (median_all norms bins n h rho Er Eb En H (is_median Rltb)) as (out & E); [nia| |].
  - intros xs Lx. apply C13_median_even_partial; [exact rltb_total| |left; rewrite Lx; exact He|intros b [= <-]; reflexivity]. intros ->. cbn in Lx. nia.
  - exists rho, out. split; [|exact E]. intros r i buf Hr Hi Hb. apply H; assumption.
Qed.
Print Assumptions C198_median_partial.
(** Of an odd number m > 1 of lines of sight it is the (m-1)/2-th largest density (so for three lines the largest) in every bin. *)
Theorem C198_median_rank : forall norms bins n h, made norms bins n h -> (2 <= length norms * n)%nat -> exists rho out,
  (forall r i buf, (r < length norms)%nat -> (i < n)%nat -> length buf = bins -> get_rhos h r i buf = Some (rho r i)) /\
  median_profile h = Some out /\ length out = bins /\ forall j, (j < bins)%nat -> ranked R Rltb (column (length norms) n rho j) (Z.of_nat (Nat.div (length norms * n) 2)) (nth j out 0).
Proof.
  intros norms bins n h M H2. destruct (made_rhos _ _ _ _ M) as (Er & Eb & En & rho & H).
  destruct (median_all norms bins n h rho Er Eb En H (fun xs m => ranked R Rltb xs (Z.of_nat (Nat.div (length norms * n) 2)) m)) as (out & E); [lia| |].
  - intros xs Lx. rewrite <- Lx. apply C13_median_is_rank_half_partial; [exact rltb_total|lia|intros b [= <-]; reflexivity].
  - exists rho, out. split; [|exact E]. intros r i buf Hr Hi Hb. apply H; assumption.
Qed.
Print Assumptions C198_median_rank.
(** The median radius of a shell for any angles drawn. *)
Theorem C198_radius_partial : forall s angles, angles <> [] -> Nat.Even (length angles) -> exists m, median_radius s angles = Some m /\ is_median Rltb (map (fun a => s (fst a) (snd a)) angles) m.
Proof.
  intros s angles Hne He. unfold median_radius. set (rs := map (fun a => s (fst a) (snd a)) angles).
  assert (Lr : length rs = length angles) by apply map_length.
  destruct (C13_median_even_partial R Rltb rs (Some rs) rltb_total) as (m & sc & E & Hm).
  - intros H. rewrite H in Lr. destruct angles; [congruence|discriminate].
  - left. rewrite Lr. exact He.
  - intros b [= <-]. reflexivity.
  - rewrite E. exists m. split; [reflexivity|exact Hm].
Qed.
Print Assumptions C198_radius_partial.
(** Of an odd number of angles with different radii it never is a median. *)
Theorem C198_radius_refuted : forall s angles, Nat.Odd (length angles) -> (3 <= length angles)%nat -> let rs := map (fun a => s (fst a) (snd a)) angles in NoDup rs ->
  exists m, median_radius s angles = Some m /\ ~ is_median Rltb rs m.
Proof.
  intros s angles Ho H3 rs ND. assert (Lr : length rs = length angles) by apply map_length.
  destruct (C13_median_odd_refuted R Rltb rs rltb_total) as (r & sc & E & H); [rewrite Lr; exact Ho|lia| |].
  - intros p q a b Hpq Ha Hb. destruct (Rtotal_order a b) as [H|[H|H]]; [left; apply Rltb_true; exact H| |right; apply Rltb_true; exact H].
    exfalso. subst b. apply Hpq. rewrite NoDup_nth_error in ND. apply ND; [apply nth_error_Some; congruence|congruence].
  - exists r. split; [|exact H]. unfold median_radius. fold rs. assert (Es : Median R Rltb rs (Some rs) = Median R Rltb rs None).
    { unfold Median, NthLargest. destruct rs as [|x l]; [reflexivity|]. rewrite Nat.eqb_refl. reflexivity. }
    rewrite Es, E. reflexivity.
Qed.
Print Assumptions C198_radius_refuted.

Example C198_nonvacuous : (exists h, made [(0, 0, 1); (3 / 5, 0, 4 / 5)] 4 6 h) /\ Nat.Even (2 * 6) /\
  NoDup (map (fun a : R * R => (fun phi theta => phi + 1) (fst a) (snd a)) [(0, 0); (1, 0); (2, 0)]).
Proof.
  split; [|split; [exists 6%nat; reflexivity|]].
  - destruct (halo_init_good [(0, 0, 1); (3 / 5, 0, 4 / 5)] (1, 2, 3) 1 2 4 6 (1 / 2)) as (h & E & G & _); [lia|lia|lra|repeat constructor; unfold dot3; lra|].
    destruct (halo_inserts_adds h [((2, 2, 3), 1 / 2, 7)] (proj1 G)) as (H & EH & _). exists H, (1, 2, 3), 1, 2, (1 / 2), h, [((2, 2, 3), 1 / 2, 7)].
    split; [repeat constructor; unfold dot3; lra|]. repeat split; try lia; try lra; assumption.
  - cbn [map fst snd]. repeat constructor; cbn [In]; intuition lra.
Qed.
