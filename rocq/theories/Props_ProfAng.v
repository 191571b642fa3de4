(** * C187-C189: prof's angular-fraction and median-error profiles (exact arithmetic unless stated otherwise). *)
From Verif Require Import ProfAngModel ProfAngSpec ProfAngProofs CatalogSpec CatalogProofs CatalogProofs3 ConfigSpec Props_Catalog RealBase GoBase GoBaseFacts LoopFacts.
From Verif Require Import ShellProofs.
From Verif Require Import ProfAngFloat.
From Verif Require ProfModel ProfSpec ProfProofs2 CatalogModel StatsRunModel StatsProofs2 SortProofs2.
From Coq Require Import Reals Lra Lia ZArith List.
Import List ListNotations.
Local Open Scope R_scope.

(** ** C187 *)
Lemma go_int_range s z : go_int s z -> (int64_min <= z <= int64_max)%Z.
Proof. intros H. inversion H; subst; assumption. Qed.
Lemma F2_length {A B} (P : A -> B -> Prop) l m : Forall2 P l m -> length l = length m.
Proof. intros H. induction H; cbn; congruence. Qed.
Lemma column_length {A} (conv : bytes -> A -> Prop) rows k col : column_is conv rows k col -> length col = length rows.
Proof. intros H. symmetry. exact (F2_length _ _ _ H). Qed.
Lemma columns_length {A} (conv : bytes -> A -> Prop) rows ks cols : Forall2 (column_is conv rows) ks cols -> Forall (fun c => length c = length rows) cols.
Proof. intros H. induction H; constructor; auto. eapply column_length; eauto. Qed.
Lemma int_columns rows ks cols : Forall2 (column_is go_int rows) ks cols -> Forall (fun c => length c = length rows /\ Forall (fun z => (int64_min <= z <= int64_max)%Z) c) cols.
Proof.
  intros H. induction H as [|k c ks cols Hc H IH]; constructor; auto. split; [eapply column_length; eauto|]. clear -Hc. unfold column_is in Hc.
  induction Hc as [|r v rows col (w & _ & _ & K) Hc IH]; constructor; auto. eapply go_int_range; eauto.
Qed.

Theorem C187_header : forall bins, (2 <= bins)%nat -> let n := Z.of_nat bins in fraction_header bins =
  Some (lit "# Column contents: ID(0) Snapshot(1) R [cMpc/h](2-" ++ itoa (2 + n - 1) ++ lit ") Volume Fraction Contained(" ++ itoa (2 + n) ++ lit "-" ++ itoa (2 + n + n - 1) ++ lit ")").
Proof.
  intros bins H n. unfold fraction_header, CatalogModel.CommentString. fold n. assert (1 < n)%Z by (unfold n; lia). clearbody n. clear H bins.
  change (CatalogModel.orderNames _ _ _) with (Some [(lit "ID", 1); (lit "Snapshot", 1); (lit "R [cMpc/h]", n); (lit "Volume Fraction Contained", n)]%Z).
  cbn [option_map]. f_equal. cbn [CatalogModel.labelCols Z.eqb]. change ((1 =? 1)%Z) with true. cbv iota.
  destruct (Z.eqb_spec n 1) as [?|_]; [lia|]. change (0 + 1 + 1)%Z with 2%Z.
  set (a := itoa (2 + n - 1)). set (b := itoa (2 + n)). set (d := itoa (2 + n + n - 1)). clearbody a b d.
  change (itoa 0) with (lit "0"). change (itoa (0 + 1)) with (lit "1"). change (itoa 2) with (lit "2").
  cbn [join lit]. repeat rewrite <- app_assoc. cbn [app]. repeat rewrite <- app_assoc. cbn [app]. reflexivity.
Qed.
Print Assumptions C187_header.

Lemma header_some bins : exists h, fraction_header bins = Some h.
Proof. eexists. reflexivity. Qed.

Lemma nth_error_zseq n i : (i < n)%nat -> nth_error (map Z.of_nat (seq 0 n)) i = Some (Z.of_nat i).
Proof. intros H. rewrite nth_error_map, (nth_error_nth' _ 0%nat) by (rewrite seq_length; exact H). rewrite seq_nth by exact H. reflexivity. Qed.
Lemma holds_seq {A} n shift (cols : list (list A)) : (shift + length cols <= n)%nat -> Forall2 (holds (map Z.of_nat (seq 0 n)) shift cols) (seq shift (length cols)) cols.
Proof.
  intros H. assert (G : forall l k, (forall i c, nth_error l i = Some c -> nth_error cols (k + i) = Some c) -> (shift + k + length l <= n)%nat ->
    Forall2 (holds (map Z.of_nat (seq 0 n)) shift cols) (seq (shift + k) (length l)) l).
  { induction l as [|c l IH]; intros k Hc Hk; [constructor|]. cbn [length seq]. cbn [length] in Hk. constructor.
    - exists k. split; [apply nth_error_zseq; lia|]. rewrite <- (Nat.add_0_r k). apply Hc. reflexivity.
    - replace (S (shift + k)) with (shift + S k)%nat by lia. apply IH; [|lia]. intros i c' Hi. replace (S k + i)%nat with (k + S i)%nat by lia. apply Hc. exact Hi. }
  specialize (G cols 0%nat). rewrite Nat.add_0_r in G. apply G; [auto|lia].
Qed.

Section C187.
Variable parseFloat : bytes -> option R.
Variable fmtFloat : R -> bytes.
Variable reread : R -> R.
Variable draw : nat -> list (R * R).

(** A catalogue with columns ID, snapshot, x, y, z, R and 2 * Order^2 coefficients: the run succeeds; its output, read as a catalogue, has the IDs and the snapshots of
    the input in columns 0 and 1, then the radii of the bins, then the fraction of the counted directions in which the shell extends beyond the inner edge of the bin. *)
Theorem C187_profiles : forall o bins a b text ls rows ids snaps xs ys zs Rs coeffs,
  (forall x, word (fmtFloat x) /\ parseFloat (fmtFloat x) = Some (reread x)) ->
  lines_of text ls -> data_rows ls rows -> plain_first rows ->
  table_is parseFloat rows [0; 1]%Z (map (fun i => Z.of_nat (i + 2)) (seq 0 (4 + o * o * 2))) [ids; snaps] ([xs; ys; zs; Rs] ++ coeffs) ->
  (1 <= bins)%nat -> 0 < a < b -> (forall r, In r Rs -> 0 < r) ->
  let radii i := map (fun d => pd_radius o (map (fun col => nth i col 0) coeffs) (direction d)) (draw i) in
  let rmin i := nth i Rs 0 * a in let rmax i := nth i Rs 0 * b in
  (forall i, (i < length rows)%nat -> (1 <= beyond bins (rmin i) (rmax i) (radii i) 0)%nat) ->
  exists out rcols fcols, fraction_run parseFloat fmtFloat draw o bins a b text = Ok out /\
    CatalogModel.Parse R parseFloat (CatalogModel.printLines out) [0; 1]%Z (map Z.of_nat (seq 2 (2 * bins))) = Ok ([ids; snaps], map (map reread) (rcols ++ fcols)) /\
    length rcols = bins /\ length fcols = bins /\ (forall col, In col (rcols ++ fcols) -> length col = length rows) /\
    forall i j, (i < length rows)%nat -> (j < bins)%nat ->
      nth i (nth j rcols []) 0 = edge bins (rmin i) (rmax i) (INR j + 1 / 2) /\
      nth i (nth j fcols []) 0 = INR (beyond bins (rmin i) (rmax i) (radii i) j) / INR (beyond bins (rmin i) (rmax i) (radii i) 0).
Proof.
  intros o bins a b text ls rows ids snaps xs ys zs Rs coeffs Hf HL HD HP HT Hb Hab HR radii rmin rmax Hc.
  pose proof (proj2 (C08_columns_are_exact R parseFloat text ls rows _ _ _ _ HL HD HP) HT) as EP. destruct HT as (_ & HI & HF).
  pose proof (int_columns _ _ _ HI) as LI. pose proof (columns_length _ _ _ _ HF) as LF. pose proof (F2_length _ _ _ HF) as LN. rewrite map_length, seq_length, app_length in LN. cbn [length] in LN.
  apply Forall_app in LF. destruct LF as [LF LC]. assert (LR : length Rs = length rows) by (inversion LF as [|? ? _ L1]; inversion L1 as [|? ? _ L2]; inversion L2 as [|? ? _ L3]; inversion L3; auto).
  assert (Lids : length ids = length rows) by (inversion LI as [|? ? [? _] _]; auto).
  destruct (fraction_columns_ok draw o bins a b xs ys zs Rs coeffs (length rows) Hb Hab LR LC ltac:(nia) HR Hc) as (rcols & fcols & EC & L1 & L2 & L3 & HV).
  destruct (header_some bins) as [h Eh].
  destruct (FormatCols_roundtrip R parseFloat fmtFloat reread [h] [ids; snaps] (rcols ++ fcols) (map Z.of_nat (seq 0 (length (rcols ++ fcols) + 2))) (length rows)) as (lines & EF & RB).
  - exact LI.
  - eapply Forall_impl; [|exact L3]. intros c Lc. split; [exact Lc|]. apply Forall_forall. intros x _. apply Hf.
  - rewrite map_length, seq_length. cbn [length]. lia.
  - rewrite Nat.add_comm. discriminate.
  - apply Forall_map. apply Forall_forall. intros i Hi. apply in_seq in Hi. cbn [length]. lia.
  - constructor; [|constructor]. eapply CommentString_is_comment; [|exact Eh]. repeat constructor; cbn; intuition discriminate.
  - exists (h :: lines), rcols, fcols. split.
    + unfold fraction_run. rewrite EP. cbn [app firstn skipn]. rewrite Lids. rewrite EC, Eh. change (List.length (rcols ++ fcols)) with (length (rcols ++ fcols)). rewrite EF. reflexivity.
    + split; [|split; [exact L1|split; [exact L2|split; [rewrite Forall_forall in L3; exact L3|exact HV]]]].
      specialize (RB [0; 1]%nat (seq 2 (length (rcols ++ fcols))) [ids; snaps] (rcols ++ fcols)).
      rewrite app_length, L1, L2 in RB. replace (bins + bins)%nat with (2 * bins)%nat in RB by lia. apply RB.
      * exact (holds_seq (2 * bins + 2) 0 [ids; snaps] ltac:(cbn [length]; lia)).
      * pose proof (holds_seq (2 * bins + 2) 2 (rcols ++ fcols)) as K. rewrite app_length, L1, L2 in K. replace (bins + bins)%nat with (2 * bins)%nat in K by lia. apply K. lia.
Qed.

(** ** C188: the Order of the configuration and the order of the catalogue *)
Lemma F2_firstn {A B} (P : A -> B -> Prop) l1 l2 m : Forall2 P (l1 ++ l2) m -> Forall2 P l1 (firstn (length l1) m).
Proof. revert m. induction l1 as [|x l1 IH]; intros m H; cbn [app length firstn] in *; [constructor|]. inversion H; subst. constructor; auto. Qed.

(** If the catalogue is of a higher order, the run is not refused: its profiles are those of the shells of order Order whose coefficients are the first 2 * Order^2 ones. *)
Theorem C188_higher_order_refuted : forall o o' bins a b text ls rows ids snaps xs ys zs Rs coeffs,
  (forall x, word (fmtFloat x) /\ parseFloat (fmtFloat x) = Some (reread x)) ->
  lines_of text ls -> data_rows ls rows -> plain_first rows -> (o < o')%nat ->
  table_is parseFloat rows [0; 1]%Z (map (fun i => Z.of_nat (i + 2)) (seq 0 (4 + o' * o' * 2))) [ids; snaps] ([xs; ys; zs; Rs] ++ coeffs) ->
  (1 <= bins)%nat -> 0 < a < b -> (forall r, In r Rs -> 0 < r) ->
  let radii i := map (fun d => pd_radius o (map (fun col => nth i col 0) (firstn (2 * o * o) coeffs)) (direction d)) (draw i) in
  let rmin i := nth i Rs 0 * a in let rmax i := nth i Rs 0 * b in
  (forall i, (i < length rows)%nat -> (1 <= beyond bins (rmin i) (rmax i) (radii i) 0)%nat) ->
  exists out rcols fcols, fraction_run parseFloat fmtFloat draw o bins a b text = Ok out /\
    CatalogModel.Parse R parseFloat (CatalogModel.printLines out) [0; 1]%Z (map Z.of_nat (seq 2 (2 * bins))) = Ok ([ids; snaps], map (map reread) (rcols ++ fcols)) /\
    length rcols = bins /\ length fcols = bins /\
    forall i j, (i < length rows)%nat -> (j < bins)%nat ->
      nth i (nth j fcols []) 0 = INR (beyond bins (rmin i) (rmax i) (radii i) j) / INR (beyond bins (rmin i) (rmax i) (radii i) 0).
Proof.
  intros o o' bins a b text ls rows ids snaps xs ys zs Rs coeffs Hf HL HD HP Ho HT Hb Hab HR radii rmin rmax Hc.
  assert (HT' : table_is parseFloat rows [0; 1]%Z (map (fun i => Z.of_nat (i + 2)) (seq 0 (4 + o * o * 2))) [ids; snaps] ([xs; ys; zs; Rs] ++ firstn (2 * o * o) coeffs)).
  { destruct HT as (W & HI & HF). split; [exact W|]. split; [exact HI|].
    replace (4 + o' * o' * 2)%nat with ((4 + o * o * 2) + 2 * (o' * o' - o * o))%nat in HF by nia. rewrite seq_app, map_app in HF. apply F2_firstn in HF. rewrite map_length, seq_length in HF.
    replace (4 + o * o * 2)%nat with (4 + 2 * o * o)%nat in * by nia. exact HF. }
  destruct (C187_profiles o bins a b text ls rows ids snaps xs ys zs Rs (firstn (2 * o * o) coeffs) Hf HL HD HP HT' Hb Hab HR Hc) as (out & rc & fc & E & RB & L1 & L2 & _ & HV).
  exists out, rc, fc. split; [exact E|]. split; [exact RB|]. split; [exact L1|]. split; [exact L2|]. intros i j Hi Hj. apply (HV i j Hi Hj).
Qed.

Lemma some_lt {A} (l : list A) n v : nth_error l n = Some v -> (n < length l)%nat.
Proof. intros H. apply nth_error_Some. congruence. Qed.
(** If it is of a lower order, the run ends with an error. *)
Theorem C188_lower_order : forall o bins a b text ls rows w,
  lines_of text ls -> data_rows ls rows -> plain_first rows -> rows <> [] -> (forall r, In r rows -> length r = w) -> (w < 6 + o * o * 2)%nat ->
  fraction_run parseFloat fmtFloat draw o bins a b text = Err.
Proof.
  intros o bins a b text ls rows w HL HD HP Hne HW Hw. unfold fraction_run.
  destruct (C10_malformed_is_an_error_partial R parseFloat text ls rows [0; 1]%Z (map (fun i => Z.of_nat (i + 2)) (seq 0 (4 + o * o * 2))) HL HD HP) as [_ HE].
  - apply Forall_app. split; [repeat constructor; lia|]. apply Forall_map, Forall_forall. intros; lia.
  - intros r0 r rest -> Hin. rewrite (HW r0) by (left; auto). rewrite (HW r) by auto. lia.
  - rewrite (proj2 HE); [reflexivity|]. intros (ics & fcs & _ & _ & HF). replace (4 + o * o * 2)%nat with ((3 + o * o * 2) + 1)%nat in HF by lia. rewrite seq_app, map_app in HF.
    apply Forall2_app_inv_l in HF. destruct HF as (m1 & m2 & _ & HF & _). cbn [seq map] in HF. inversion HF as [|k c ks cs Hk _]; subst. destruct rows as [|r0 rows]; [congruence|].
    unfold column_is in Hk. inversion Hk as [|? ? ? ? (v & _ & Hv & _) _]; subst. apply some_lt in Hv.
    rewrite (HW r0) in Hv by (left; auto). lia.
Qed.
End C187.
Print Assumptions C187_profiles.
Print Assumptions C188_higher_order_refuted.
Print Assumptions C188_lower_order.

(** The catalogue of one halo of order 2, r = 2 + x, with one direction: the x axis, where its shell is at 3. With Order = 2 the fraction of the second bin (from 2.5) is 1,
    with Order = 1 it is 0. *)
Definition ex_text : bytes := lit "7 3 5 5 5 1 2 1 0 0 0 0 0 0".
Definition ex_parse (b : bytes) : option R := option_map IZR (atoi b).
Definition ex_bit (x : R) : R := if Rltb 0 x then 1 else 0.
Definition ex_fmt (x : R) : bytes := if Rltb 0 x then lit "1" else lit "0".
Lemma ex_contract x : word (ex_fmt x) /\ ex_parse (ex_fmt x) = Some (ex_bit x).
Proof. unfold ex_fmt, ex_bit. destruct (Rltb 0 x); (split; [|reflexivity]); [exact (itoa_word 1)|exact (itoa_word 0)]. Qed.
Lemma ex_rows : exists ls rows, lines_of ex_text ls /\ data_rows ls rows /\ plain_first rows /\ length rows = 1%nat /\
  table_is ex_parse rows [0; 1]%Z (map (fun i => Z.of_nat (i + 2)) (seq 0 12)) [[7]; [3]]%Z ([[5]; [5]; [5]; [1]] ++ [[2]; [1]; [0]; [0]; [0]; [0]; [0]; [0]]).
Proof.
  exists (split_byte nl ex_text), (rowsf (split_byte nl ex_text)). assert (L : lines_of ex_text (split_byte nl ex_text)) by (apply ConfigProofs.lines_of_split; reflexivity).
  assert (D : data_rows (split_byte nl ex_text) (rowsf (split_byte nl ex_text))) by (apply data_rows_iff; reflexivity).
  split; [exact L|]. split; [exact D|]. split; [|split; [reflexivity|]].
  - change (rowsf (split_byte nl ex_text)) with [[lit "7"; lit "3"; lit "5"; lit "5"; lit "5"; lit "1"; lit "2"; lit "1"; lit "0"; lit "0"; lit "0"; lit "0"; lit "0"; lit "0"]].
    cbn. repeat (constructor; [repeat (constructor; [cbn; lia|]); constructor|]). constructor.
  - eapply C08_success_is_always_exact; [exact L|exact D|]. reflexivity.
Qed.
Definition ex_draw (_ : nat) : list (R * R) := [(0, PI / 2)].
Lemma ex_edge1 : edge 2 (1 * 1) (1 * (25 / 4)) (INR 1) = 5 / 2.
Proof.
  unfold edge. replace (1 * (25 / 4) / (1 * 1)) with (25 / 4) by field. replace (INR 1 / INR 2) with (/ 2) by (cbn; lra). rewrite Rpower_sqrt by lra.
  replace (25 / 4) with ((5 / 2) * (5 / 2)) by field. rewrite sqrt_square by lra. lra.
Qed.
Lemma ex_edge0 : edge 2 (1 * 1) (1 * (25 / 4)) (-1) = 2 / 5.
Proof.
  unfold edge. replace (1 * (25 / 4) / (1 * 1)) with (25 / 4) by field. replace (-1 / INR 2) with (- / 2) by (cbn; lra). rewrite Rpower_Ropp, Rpower_sqrt by lra.
  replace (25 / 4) with ((5 / 2) * (5 / 2)) by field. rewrite sqrt_square by lra. lra.
Qed.
Lemma ex_dir : direction (0, PI / 2) = (1, 0, 0).
Proof. unfold direction. rewrite sin_PI2, cos_PI2, cos_0, sin_0. rewrite !Rmult_1_l. reflexivity. Qed.
Ltac decide_ex := repeat match goal with |- context [Rlt_dec ?a ?b] => destruct (Rlt_dec a b); try lra | |- context [Rle_dec ?a ?b] => destruct (Rle_dec a b); try lra end.
Lemma ex_beyond r : 2 / 5 < r < 25 / 4 -> beyond 2 (1 * 1) (1 * (25 / 4)) [r] 0 = 1%nat.
Proof. intros H. unfold beyond, strictly_between. rewrite ex_edge0. cbn [filter]. decide_ex. reflexivity. Qed.
Lemma ex_beyond1 r : 2 / 5 < r < 25 / 4 -> beyond 2 (1 * 1) (1 * (25 / 4)) [r] 1 = if Rle_dec (5 / 2) r then 1%nat else 0%nat.
Proof. intros H. unfold beyond, how_many. rewrite ex_edge1. cbn [filter]. decide_ex; reflexivity. Qed.

Lemma ex_radius2 : pd_radius 2 [2; 1; 0; 0; 0; 0; 0; 0] (1, 0, 0) = 3.
Proof. unfold pd_radius, sum_n. cbn. ring. Qed.
Lemma ex_radius1 : pd_radius 1 [2; 1] (1, 0, 0) = 2.
Proof. unfold pd_radius, sum_n. cbn. ring. Qed.

Example C187_nonvacuous : exists out f, fraction_run ex_parse ex_fmt ex_draw 2 2 1 (25 / 4) ex_text = Ok out /\
  CatalogModel.Parse R ex_parse (CatalogModel.printLines out) [0; 1]%Z (map Z.of_nat (seq 2 4)) = Ok ([[7]; [3]]%Z, f) /\ nth 0 (nth 3 f []) 0 = 1.
Proof.
  destruct ex_rows as (ls & rows & L & D & P & N & T).
  destruct (C187_profiles ex_parse ex_fmt ex_bit ex_draw 2 2 1 (25 / 4) ex_text ls rows [7]%Z [3]%Z [5] [5] [5] [1] _ ex_contract L D P T) as (out & rc & fc & E & RB & L1 & L2 & LL & HV); [lia|lra| | |].
  - intros r [<-|[]]. lra.
  - intros i Hi. assert (i = 0)%nat by lia. subst i. cbn [nth map ex_draw]. rewrite ex_dir, ex_radius2, ex_beyond by lra. lia.
  - exists out, (map (map ex_bit) (rc ++ fc)). split; [exact E|]. split; [exact RB|]. destruct (HV 0%nat 1%nat) as [_ K]; [lia|lia|]. cbn [map ex_draw nth] in K. rewrite ex_dir, ex_radius2, ex_beyond, ex_beyond1 in K by lra.
    destruct (Rle_dec (5 / 2) 3); [|lra]. change (INR 1) with 1 in K.
    destruct rc as [|r0 [|r1 [|? ?]]]; try discriminate L1. destruct fc as [|f0 [|f1 [|? ?]]]; try discriminate L2. cbn [nth] in K. cbn [app map nth].
    destruct f1 as [|v f1]; cbn [nth] in K; [lra|]. cbn [map nth]. subst v. unfold ex_bit. destruct (Rltb_spec 0 (1 / 1)); lra.
Qed.
(** The same file with Order = 1. *)
Example C188_nonvacuous : exists out f, fraction_run ex_parse ex_fmt ex_draw 1 2 1 (25 / 4) ex_text = Ok out /\
  CatalogModel.Parse R ex_parse (CatalogModel.printLines out) [0; 1]%Z (map Z.of_nat (seq 2 4)) = Ok ([[7]; [3]]%Z, f) /\ nth 0 (nth 3 f []) 0 = 0.
Proof.
  destruct ex_rows as (ls & rows & L & D & P & N & T).
  destruct (C188_higher_order_refuted ex_parse ex_fmt ex_bit ex_draw 1 2 2 1 (25 / 4) ex_text ls rows [7]%Z [3]%Z [5] [5] [5] [1] _ ex_contract L D P ltac:(lia) T) as (out & rc & fc & E & RB & L1 & L2 & HV); [lia|lra| | |].
  - intros r [<-|[]]. lra.
  - intros i Hi. assert (i = 0)%nat by lia. subst i. cbn [nth map ex_draw firstn Nat.mul Nat.add]. rewrite ex_dir, ex_radius1, ex_beyond by lra. lia.
  - exists out, (map (map ex_bit) (rc ++ fc)). split; [exact E|]. split; [exact RB|]. pose proof (HV 0%nat 1%nat ltac:(lia) ltac:(lia)) as K. cbn [map ex_draw nth firstn Nat.mul Nat.add] in K. rewrite ex_dir, ex_radius1, ex_beyond, ex_beyond1 in K by lra.
    destruct (Rle_dec (5 / 2) 2); [lra|]. change (INR 1) with 1 in K. change (INR 0) with 0 in K.
    destruct rc as [|r0 [|r1 [|? ?]]]; try discriminate L1. destruct fc as [|f0 [|f1 [|? ?]]]; try discriminate L2. cbn [nth] in K. cbn [app map nth].
    destruct f1 as [|v f1]; [reflexivity|]. cbn [nth] in K. cbn [map nth]. subst v. unfold ex_bit. destruct (Rltb_spec 0 (0 / 1)); [lra|reflexivity].
Qed.
(** With Order = 3 it is refused. *)
Example C188_lower_nonvacuous : fraction_run ex_parse ex_fmt ex_draw 3 2 1 (25 / 4) ex_text = Err.
Proof. reflexivity. Qed.

(** ** C189: the error of a percentile *)
Lemma ranked_rank s k m : SortProofs2.ranked R Rltb s k m -> has_rank s k m.
Proof.
  intros (lo & hi & P & F1 & F2 & L). exists lo, hi. split; [exact P|].
  assert (Hle : forall a b, SortProofs.le Rltb a b -> a <= b) by (intros a b H; unfold SortProofs.le in H; destruct (Rltb_spec b a); [discriminate|lra]).
  split; [revert F1; apply Forall_impl; intros; now apply Hle|]. split; [revert F2; apply Forall_impl; intros; now apply Hle|exact L].
Qed.

(** In exact arithmetic: the standard deviation of the percentiles of Samples samples, each of which has as many values as there are pixels, drawn from them with
    replacement; [draw i j] says which value is drawn. *)
Theorem C189_bootstrap : forall draw x scratch num den samples, x <> [] -> length scratch = length x -> (0 <= num <= den)%Z -> (0 < den)%Z -> (0 < samples)%nat ->
  (forall i j, (i < samples)%nat -> (j < length x)%nat -> (draw i j < length x)%nat) ->
  exists ps e, bootstrap real_arith draw x scratch num den samples = Some e /\ length ps = samples /\ is_deviation ps e /\
    forall i p, nth_error ps i = Some p -> exists s, sample_of x s /\ (forall j, (j < length x)%nat -> nth_error s j = nth_error x (draw i j)) /\
      has_rank s (Z.max 1 (num * Z.of_nat (length x) / den)) p.
Proof.
  intros draw x scratch num den samples Hx Hs Hp Hd Hn D. destruct (bootstrap_ok draw x scratch num den samples Hx Hs Hp Hd Hn D) as (ps & e & E & L & Dv & W).
  exists ps, e. split; [exact E|]. split; [exact L|]. split; [exact Dv|]. intros i p K. destruct (W i p K) as (s & Ls & Hj & Rk). exists s. split; [|split; [exact Hj|now apply ranked_rank]].
  split; [exact Ls|]. intros v Hv. apply In_nth_error in Hv. destruct Hv as [j Hv]. pose proof (some_lt _ _ _ Hv) as Lj. rewrite Ls in Lj. rewrite (Hj j Lj) in Hv. eapply nth_error_In; eauto.
Qed.
Print Assumptions C189_bootstrap.

(** The profile: the radius of a bin and the error divided by the volume of the bin. *)
Theorem C189_profile : forall draw n med scratch rMin rMax num den samples P, (0 < n)%nat -> 0 < rMin < rMax -> length med = n -> (0 < P)%nat -> length scratch = P ->
  (forall j, (j < n)%nat -> length (nth j med []) = P) -> (0 <= num <= den)%Z -> (0 < den)%Z -> (0 < samples)%nat ->
  (forall j i p, (p < P)%nat -> (draw j i p < P)%nat) ->
  exists rs out, process_median_error draw n med scratch rMin rMax num den samples = Some (rs, out) /\ length rs = n /\ length out = n /\
    forall j, (j < n)%nat -> let lo := ProfSpec.edge n rMin rMax j in let hi := ProfSpec.edge n rMin rMax (S j) in nth j rs 0 = sqrt (lo * hi) /\
      exists ps e, nth j out 0 = e / ProfSpec.shell_volume lo hi /\ length ps = samples /\ is_deviation ps e /\
        forall i p, nth_error ps i = Some p -> exists s, sample_of (nth j med []) s /\ (forall q, (q < P)%nat -> nth_error s q = nth_error (nth j med []) (draw j i q)) /\
          has_rank s (Z.max 1 (num * Z.of_nat P / den)) p.
Proof.
  intros draw n med scratch rMin rMax num den samples P Hn Hr HL HP Hsc HPm Hp Hd Hs D. unfold process_median_error.
  assert (Hb : forall j, (j < n)%nat -> exists ps e, bootstrap real_arith (draw j) (nth j med []) scratch num den samples = Some e /\ length ps = samples /\ is_deviation ps e /\
    forall i p, nth_error ps i = Some p -> exists s, sample_of (nth j med []) s /\ (forall q, (q < P)%nat -> nth_error s q = nth_error (nth j med []) (draw j i q)) /\
      has_rank s (Z.max 1 (num * Z.of_nat P / den)) p).
  { intros j Hj. rewrite <- (HPm j Hj). pose proof (HPm j Hj) as Lj. apply C189_bootstrap; auto; [intros E; rewrite E in Lj; cbn in Lj; lia|congruence|]. intros i q _ Hq. rewrite Lj in *. apply D. exact Hq. }
  set (f := fun j => match bootstrap real_arith (draw j) (nth j med []) scratch num den samples with Some e => e / ProfModel.bin_volume n rMin rMax j | None => 0 end).
  rewrite (mapo_all _ f).
  - eexists _, _. split; [reflexivity|]. rewrite !map_length, seq_length. split; [reflexivity|]. split; [reflexivity|]. intros j Hj.
    rewrite (nth_indep _ 0 (ProfModel.bin_centre n rMin rMax 0)) by (rewrite map_length, seq_length; exact Hj). rewrite map_nth, seq_nth by exact Hj. split; [apply ProfProofs2.bin_centre_spec; assumption|].
    destruct (Hb j Hj) as (ps & e & E & K). exists ps, e. split; [|exact K].
    rewrite (nth_indep _ 0 (f 0%nat)) by (rewrite map_length, seq_length; exact Hj). rewrite map_nth, seq_nth by exact Hj. unfold f. cbn [Nat.add]. rewrite E. rewrite ProfProofs2.bin_volume_spec by assumption. reflexivity.
  - intros j Hj. apply in_seq in Hj. rewrite (rd_nth med j []) by lia. destruct (Hb j ltac:(lia)) as (ps & e & E & _). unfold f. rewrite E. reflexivity.
Qed.
Print Assumptions C189_profile.

(** Two pixels, 1 and 3; the first sample is 1, 1 and the second one 3, 3: the error is 1. *)
Example C189_nonvacuous : bootstrap real_arith (fun i _ => i) [1; 3] [0; 0] 1 2 2 = Some 1.
Proof.
  destruct (C189_bootstrap (fun i _ => i) [1; 3] [0; 0] 1 2 2) as (ps & e & E & L & (H & V) & W); try discriminate; try reflexivity; try lia; [intros; cbn [length]; lia|].
  rewrite E. f_equal. destruct ps as [|p [|q [|? ?]]]; try discriminate L.
  assert (G : forall i p v, nth_error [p; q] i = Some p -> False -> p = v) by tauto. clear G.
  assert (K : forall i r v, nth_error [p; q] i = Some r -> nth_error [1; 3] i = Some v -> r = v).
  { intros i r v Hr Hv. destruct (W i r Hr) as (s & [Ls _] & Hs & (lo & hi & P & _)). assert (Hin : In r s) by (apply (Permutation.Permutation_in _ (Permutation.Permutation_sym P)), in_elt).
    apply In_nth_error in Hin. destruct Hin as [j Hj]. pose proof (some_lt _ _ _ Hj) as Lj. rewrite (Hs j) in Hj by lia. cbn beta in Hj. congruence. }
  rewrite (K 0%nat p 1 eq_refl eq_refl), (K 1%nat q 3 eq_refl eq_refl) in V. unfold mean, total in V. cbn in V. nra.
Qed.

(** In float64: if all pixels have the density 0.1 all percentiles are equal and their deviation is 0, but with three samples the result is not a number, whatever is drawn. *)
Theorem C189_rounding_refuted : forall draw, (forall i j, (j < 4)%nat -> (draw i j < 4)%nat) ->
  exists e, bootstrap ieee64 draw (repeat tenth 4) (repeat 0%Z 4) 1 2 3 = Some e /\ nan64 e.
Proof.
  intros draw D.
  assert (G : forall i, resample draw (repeat tenth 4) i = Some (repeat tenth 4)).
  { intros i. unfold resample. change (List.length (repeat tenth 4)) with 4%nat. rewrite (mapo_all _ (fun _ => tenth)); [reflexivity|]. intros j Hj. apply in_seq in Hj. specialize (D i j ltac:(lia)). unfold rd. apply nth_error_repeat. exact D. }
  assert (P : exists r, SortModel.Percentile Z (a_lt ieee64) (repeat tenth 4) 1 2 (Some (repeat 0%Z 4)) = Some r /\ fst r = tenth) by (eexists; split; [vm_compute; reflexivity|reflexivity]).
  destruct P as ([p sc] & P & Ep). cbn [fst] in Ep. subst p.
  unfold bootstrap. cbn [seq fold_left]. unfold bootstrap_step. rewrite !G, P. cbn [fst]. eexists. split; [reflexivity|]. vm_compute. reflexivity.
Qed.
Print Assumptions C189_rounding_refuted.
