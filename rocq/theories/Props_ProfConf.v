(** * Property C88: the prof mode's configuration. Floats are reals (RealBase.v). *)
From Coq Require Import Reals Lra Lia ZArith List Bool String.
From Verif Require Import ProfConfModel InterpProofs.
Import List ListNotations.
Local Open Scope R_scope.

(** The names that the documentation lists (ExampleConfig). *)
Definition known_type (s : string) (t : Profile) : Prop :=
  In (s, t) [("density", PDensity); ("median-density", PMedian); ("median-error", PMedianError); ("contained-density", PContained); ("angular-fraction", PAngular); ("bound-density", PBound)]%string.

Lemma prof_type_spec s t : prof_type s = Some t <-> known_type s t.
Proof.
  unfold prof_type, known_type. cbn [In]. split.
  - repeat match goal with |- context [String.eqb s ?x] => destruct (String.eqb_spec s x) as [->|] end; intros [= <-]; tauto.
  - intros H. repeat destruct H as [[= <- <-]|H]; reflexivity || destruct H.
Qed.

(** What is accepted: a known type, Bins and MedianPixelLevel not negative, positive multipliers. *)
Theorem C88_accepts : forall v t, prof_read_config true v = inr t <->
  known_type (pv_type v) t /\ (0 <= pv_bins v)%Z /\ 0 < pv_rMinMult v /\ 0 < pv_rMaxMult v /\ (0 <= pv_level v)%Z.
Proof.
  intros v t. unfold prof_read_config, prof_validate. cbn [negb]. rewrite <- prof_type_spec. destruct (prof_type (pv_type v)) as [t'|]; [|split; [discriminate|intros ([=] & _)]].
  destruct (Z.ltb_spec (pv_bins v) 0); [split; [discriminate|intros (_ & ? & _); lia]|].
  destruct (Rltb 0 (pv_rMinMult v)) eqn:E1; [apply Rltb_true in E1|apply Rltb_false in E1]; cbn [negb]; [|split; [discriminate|intros (_ & _ & ? & _); lra]].
  destruct (Rltb 0 (pv_rMaxMult v)) eqn:E2; [apply Rltb_true in E2|apply Rltb_false in E2]; cbn [negb]; [|split; [discriminate|intros (_ & _ & _ & ? & _); lra]].
  destruct (Z.ltb_spec (pv_level v) 0); [split; [discriminate|intros (_ & _ & _ & _ & ?); lia]|].
  split; [intros [= ->]; repeat split; (lra || lia || reflexivity)|intros ([= ->] & _); reflexivity].
Qed.
Print Assumptions C88_accepts.

(** Every rejected configuration with a positive RMaxMult is rejected with the name of a variable that has a bad value. *)
Theorem C88_names : forall v name, 0 < pv_rMaxMult v -> prof_read_config true v = inl name ->
  (name = "ProfileType"%string /\ forall t, ~ known_type (pv_type v) t) \/ (name = "Bins"%string /\ (pv_bins v < 0)%Z) \/ (name = "RMinMult"%string /\ pv_rMinMult v <= 0) \/
  (name = "MedianPixelLevel"%string /\ (pv_level v < 0)%Z).
Proof.
  intros v name HM. unfold prof_read_config, prof_validate. cbn [negb]. destruct (prof_type (pv_type v)) as [t'|] eqn:Et.
  2: { intros [= <-]. left. split; [reflexivity|]. intros t Ht. apply prof_type_spec in Ht. congruence. }
  destruct (Z.ltb_spec (pv_bins v) 0); [intros [= <-]; auto|].
  destruct (Rltb 0 (pv_rMinMult v)) eqn:E1; [apply Rltb_true in E1|apply Rltb_false in E1]; cbn [negb]; [|intros [= <-]; auto].
  rewrite (proj2 (Rltb_true _ _) HM). cbn [negb]. destruct (Z.ltb_spec (pv_level v) 0); [intros [= <-]; auto|discriminate].
Qed.
Print Assumptions C88_names.

(** A bad RMaxMult is reported as a bad RMinMult. *)
Theorem C88_rmax_name_refuted : forall v, (exists t, known_type (pv_type v) t) -> (0 <= pv_bins v)%Z -> 0 < pv_rMinMult v -> pv_rMaxMult v <= 0 ->
  prof_read_config true v = inl "RMinMult"%string.
Proof.
  intros v (t & Ht) Hb Hm HM. unfold prof_read_config, prof_validate. cbn [negb]. rewrite (proj2 (prof_type_spec _ _) Ht). destruct (Z.ltb_spec (pv_bins v) 0); [lia|].
  rewrite (proj2 (Rltb_true _ _) Hm), (proj2 (Rltb_false 0 (pv_rMaxMult v)) HM). reflexivity.
Qed.
Print Assumptions C88_rmax_name_refuted.

(** ProfileType is not required when nothing is given: the profile is then a density profile. *)
Theorem C88_required_refuted : forall v, prof_read_config false v = inr PDensity.
Proof. reflexivity. Qed.
Print Assumptions C88_required_refuted.

(** Accepted although useless: no bins, inner radius above the outer one, ... *)
Theorem C88_ranges_refuted :
  prof_read_config true (mkProfVars 0 3 50000 3 (3 / 100) 3 50 100 "density") = inr PDensity /\
  prof_read_config true (mkProfVars 150 3 50000 1 2 3 50 100 "density") = inr PDensity /\
  prof_read_config true (mkProfVars 150 3 50000 3 (3 / 100) 3 150 100 "median-density") = inr PMedian.
Proof. split; [|split]; apply C88_accepts; cbn [pv_type pv_bins pv_rMinMult pv_rMaxMult pv_level]; (split; [unfold known_type; cbn [In]; tauto|]); repeat split; (lia || lra). Qed.
Print Assumptions C88_ranges_refuted.

(** ... and a Percentile above 100 or below 0, with which a median profile panics. *)
Theorem C88_percentile_refuted : forall n med rMin rMax num den, (0 < n)%nat -> (den < num \/ num < 0)%Z -> process_median_profile n med rMin rMax num den = None.
Proof.
  intros n med rMin rMax num den Hn Hp. unfold process_median_profile. destruct n as [|n]; [lia|]. cbn [seq mapo].
  destruct (rd med 0) as [m|]; [|reflexivity]. unfold SortModel.Percentile. destruct m; [reflexivity|].
  destruct (Z.ltb_spec den num), (Z.ltb_spec num 0); cbn [orb]; try reflexivity. lia.
Qed.
Print Assumptions C88_percentile_refuted.

Example C88_nonvacuous : known_type "bound-density" PBound /\ ~ (exists t, known_type "Density" t) /\ prof_validate prof_defaults = None.
Proof.
  split; [unfold known_type; cbn [In]; tauto|]. split; [intros (t & H); apply prof_type_spec in H; discriminate|].
  unfold prof_validate, prof_defaults. cbn [pv_bins pv_rMinMult pv_rMaxMult pv_level]. rewrite (proj2 (Rltb_true 0 (3 / 100))) by lra. rewrite (proj2 (Rltb_true 0 3)) by lra. reflexivity.
Qed.
