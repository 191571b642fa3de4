(** * C128: the headers of nil snapshots *)
From Verif Require Import GlobalModel GlobalProofs HeaderMemoModel GoBaseFacts Props_Global.
From Verif Require Import GoBase.
From Coq Require Import ZArith List Lia.
Import List ListNotations.
Local Open Scope Z_scope.

(** What a header holds, field by field in the order of io.Header: cosmology (z, Omega_M, Omega_L, h100), particle count,
    box width; origin and width of the region (float32). *)
Definition header_is (h : header) (z om ol h100 n tw : Z) (origin width : Z * Z * Z) : Prop :=
  hd64 h = [z; om; ol; h100; n; tw] /\
  let '(o0, o1, o2) := origin in let '(w0, w1, w2) := width in hd32 h = [o0; o1; o2; w0; w1; w2].

(** If SnapMin is 0 and there is a scale factor for every snapshot, the header of snapshot s holds the configured cosmology and box,
    with the redshift 1/a - 1 of scale factor number s, a particle count of -1 (as a 64-bit pattern) and the whole box as its region.
    Missing: configurations with another SnapMin. *)
Theorem C128_nil_header_partial : forall inv1 to32 g s, g_snapMin g = 0 -> 0 <= s <= g_snapMax g -> g_snapMax g <= int64_max ->
  g_snapMax g < Z.of_nat (length (g_nilScaleFactors g)) ->
  exists h, nil_source inv1 to32 g s = Ok [h] /\
    header_is h (inv1 (nth (Z.to_nat s) (g_nilScaleFactors g) 0)) (g_nilOmegaM g) (g_nilOmegaL g) (g_nilH100 g) (2 ^ 64 - 1) (g_nilTotalWidth g)
      (0, 0, 0) (to32 (g_nilTotalWidth g), to32 (g_nilTotalWidth g), to32 (g_nilTotalWidth g)).
Proof.
  intros inv1 to32 g s Hm Hs H64 HL. unfold nil_source, nil_catalog. destruct (Z.ltb_spec s 0) as [?|_]; [lia|].
  unfold nil_names. rewrite nth_error_map, (nth_error_nth' _ 0%nat) by (rewrite seq_length; lia). cbn [option_map]. rewrite seq_nth by lia.
  cbn [Nat.add]. rewrite Z2Nat.id by lia. unfold nil_header. rewrite atoi_itoa by (unfold int64_min in *; lia). destruct (Z.ltb_spec s 0) as [?|_]; [lia|].
  rewrite (nth_error_nth' _ 0) by lia. eexists. split; [reflexivity|]. split; reflexivity.
Qed.
Print Assumptions C128_nil_header_partial.

(** With any other SnapMin the last SnapMin snapshots cannot be used at all: asking for the header of one of them panics, however many
    scale factors there are. *)
Theorem C128_late_snapshots_refuted : forall inv1 to32 g s, 0 < g_snapMin g -> g_snapMin g <= g_snapMax g ->
  g_snapMax g - g_snapMin g < s <= g_snapMax g -> nil_source inv1 to32 g s = Panic.
Proof.
  intros inv1 to32 g s Hm Hle Hs. unfold nil_source, nil_catalog. destruct (Z.ltb_spec s 0) as [?|_]; [reflexivity|].
  replace (nth_error (nil_names g) (Z.to_nat s)) with (@None bytes); [reflexivity|]. symmetry. apply nth_error_None. unfold nil_names.
  rewrite map_length, seq_length. lia.
Qed.
Print Assumptions C128_late_snapshots_refuted.

(** ... and the other ones take the scale factors from the beginning of the list: with one scale factor per snapshot SnapMin..SnapMax,
    snapshot s gets the one of snapshot SnapMin + s. *)
Theorem C128_shifted_refuted : forall inv1 to32 g s, 0 < g_snapMin g -> g_snapMax g <= int64_max ->
  length (g_nilScaleFactors g) = Z.to_nat (g_snapMax g - g_snapMin g + 1) -> g_snapMin g <= s <= g_snapMax g - g_snapMin g ->
  exists h rest, nil_source inv1 to32 g s = Ok [h] /\ hd64 h = inv1 (nth (Z.to_nat s) (g_nilScaleFactors g) 0) :: rest /\
    (NoDup (g_nilScaleFactors g) -> nth (Z.to_nat s) (g_nilScaleFactors g) 0 <> nth (Z.to_nat (s - g_snapMin g)) (g_nilScaleFactors g) 0).
Proof.
  intros inv1 to32 g s Hm H64 HL Hs. unfold nil_source, nil_catalog. destruct (Z.ltb_spec s 0) as [?|_]; [lia|].
  unfold nil_names. rewrite nth_error_map, (nth_error_nth' _ 0%nat) by (rewrite seq_length; lia). cbn [option_map]. rewrite seq_nth by lia.
  cbn [Nat.add]. rewrite Z2Nat.id by lia. unfold nil_header. rewrite atoi_itoa by (unfold int64_min in *; lia). destruct (Z.ltb_spec s 0) as [?|_]; [lia|].
  rewrite (nth_error_nth' _ 0) by lia. do 2 eexists. split; [reflexivity|]. split; [reflexivity|].
  intros Nd E. rewrite NoDup_nth in Nd. apply Nd in E; lia.
Qed.
Print Assumptions C128_shifted_refuted.

(** Accepted configurations with SnapMin 0 and 2; three and five scale factors. *)
Definition nil_from (m : string) (factors : string) : bytes :=
  text_of ["[config]"; "SnapshotType = nil"; "MemoDir = memo"; append "SnapMin = " m; "SnapMax = 6"; "NilSnapOmegaM = 27"; "NilSnapOmegaL = 73"; "NilSnapH100 = 70";
           "NilSnapTotalWidth = 250"; append "NilSnapScaleFactors = " factors]%string.
Example C128_nonvacuous :
  (exists g h, zread (nil_from "0" "5, 10, 20, 40, 60, 80, 100") = Ok g /\ g_snapMin g = 0 /\ g_snapMax g < Z.of_nat (length (g_nilScaleFactors g)) /\
     nil_source (fun a => 100 - a) (fun x => x) g 6 = Ok [h] /\ hd64 h = [0; 27; 73; 70; 2 ^ 64 - 1; 250]) /\
  (exists g, zread (nil_from "2" "20, 40, 60, 80, 100") = Ok g /\ g_snapMin g = 2 /\
     length (g_nilScaleFactors g) = Z.to_nat (g_snapMax g - g_snapMin g + 1) /\
     nil_source (fun a => 100 - a) (fun x => x) g 5 = Panic /\
     exists h rest, nil_source (fun a => 100 - a) (fun x => x) g 2 = Ok [h] /\ hd64 h = 40 :: rest).
Proof.
  split.
  - do 2 eexists. split; [vm_compute; reflexivity|]. split; [reflexivity|]. split; [vm_compute; reflexivity|]. split; [vm_compute; reflexivity|]. reflexivity.
  - eexists. split; [vm_compute; reflexivity|]. split; [reflexivity|]. split; [vm_compute; reflexivity|]. split; [vm_compute; reflexivity|].
    do 2 eexists. split; [vm_compute; reflexivity|]. reflexivity.
Qed.
