(** * Properties C01, C02: version strings. *)
From Verif Require Import GoBase GoBaseFacts VersionModel VersionProofs.
Local Open Scope Z_scope.

(** C01. The accepted language and the returned numbers. *)
Theorem C01_parse_exact : forall s v, Parse s = Some v <-> version_string s v.
Proof. exact Parse_spec. Qed.
Print Assumptions C01_parse_exact.

Theorem C01_later_is_lexicographic : forall s1 s2 b,
  Later s1 s2 = Some b <->
  exists v1 v2, version_string s1 v1 /\ version_string s2 v2 /\ (b = true <-> lex_later v1 v2).
Proof. exact Later_spec. Qed.
Print Assumptions C01_later_is_lexicographic.

Theorem C01_later_error_iff : forall s1 s2,
  Later s1 s2 = None <-> (forall v, ~ version_string s1 v) \/ (forall v, ~ version_string s2 v).
Proof. exact Later_error_iff. Qed.
Print Assumptions C01_later_error_iff.

Theorem C01_later_strict_total_order :
  (forall s, Later s s <> Some true)
  /\ (forall s t, Later s t = Some true -> Later t s = Some false)
  /\ (forall s t u, Later s t = Some true -> Later t u = Some true -> Later s u = Some true)
  /\ (forall s t v w, version_string s v -> version_string t w ->
        Later s t = Some true \/ Later t s = Some true \/ v = w).
Proof. exact (conj Later_irrefl (conj Later_asym (conj Later_trans Later_total))). Qed.
Print Assumptions C01_later_strict_total_order.

Example C01_nonvacuous : Parse (lit "10.2.033") = Some (10, 2, 33)
  /\ Later (lit "1.10.0") (lit "1.9.7") = Some true /\ Parse (lit "1..3") = None
  /\ Parse (lit "1.-2.3") = None /\ Parse (lit "1.2.99999999999999999999") = None.
Proof. vm_compute. repeat split. Qed.

(** C02. Exact characterisation of the check for every source version... *)
Theorem C02_version_check_characterised : forall src cfg sM sm sp,
  version_string src (sM, sm, sp) ->
  (validateVersion src cfg = true <->
   exists M m p, version_string cfg (M, m, p) /\
     ((sM = 0 \/ M = 0) -> (M, m, p) = (sM, sm, sp)) /\
     (sM = 1 -> M = 1 -> m <= sm /\ p <= sp)).
Proof. exact validateVersion_char. Qed.
Print Assumptions C02_version_check_characterised.

(** ... the property itself holds for the compiled-in version and config versions with major <= 1
    (missing: config major >= 2, and other source versions, where it is false -- below). *)
Theorem C02_not_from_the_future_partial : forall cfg M m p,
  version_string cfg (M, m, p) -> M <= 1 ->
  (validateVersion SourceVersion cfg = true <-> M = 1 /\ Later cfg SourceVersion = Some false).
Proof. exact validateVersion_current. Qed.
Print Assumptions C02_not_from_the_future_partial.

(** A config with a later (major 2) version is accepted by the current source. *)
Theorem C02_future_major_accepted_refuted :
  exists cfg, Later cfg SourceVersion = Some true /\ validateVersion SourceVersion cfg = true.
Proof. exists (lit "2.0.0"). vm_compute. split; reflexivity. Qed.
Print Assumptions C02_future_major_accepted_refuted.

(** With source 1.1.0, a config of the *earlier* release 1.0.4 is rejected as "from the future". *)
Theorem C02_older_rejected_refuted :
  exists src cfg, Later src cfg = Some true /\ validateVersion src cfg = false
                  /\ validateVersion src (lit "1.0.0") = true.
Proof. exists (lit "1.1.0"), (lit "1.0.4"). vm_compute. repeat split. Qed.
Print Assumptions C02_older_rejected_refuted.

Example C02_nonvacuous : version_string (lit "1.0.3") (1, 0, 3) /\ 1 <= 1
  /\ validateVersion SourceVersion (lit "1.0.3") = true
  /\ validateVersion SourceVersion (lit "1.0.5") = false
  /\ validateVersion SourceVersion (lit "0.3.0") = false.
Proof. split; [apply Parse_spec; vm_compute; reflexivity|]. vm_compute. repeat split; discriminate. Qed.
