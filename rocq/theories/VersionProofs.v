From Verif Require Import GoBase GoBaseFacts VersionModel.
From Coq Require Import ZifyBool.
Local Open Scope Z_scope.

(** ** Specification, independent of the model *)

(** [s] is three dot-separated decimal integers (optionally signed, each fitting in an int), none negative. *)
Definition version_string (s : bytes) (v : Z * Z * Z) : Prop :=
  let '(a, b, c) := v in
  exists ta tb tc,
    s = ta ++ lit "." ++ tb ++ lit "." ++ tc
    /\ go_int ta a /\ go_int tb b /\ go_int tc c
    /\ 0 <= a /\ 0 <= b /\ 0 <= c.

(** Lexicographic "is a later version than". *)
Definition lex_later (v w : Z * Z * Z) : Prop :=
  let '(a1, b1, c1) := v in
  let '(a2, b2, c2) := w in
  a1 > a2 \/ (a1 = a2 /\ b1 > b2) \/ (a1 = a2 /\ b1 = b2 /\ c1 > c2).

(** ** Proofs *)
Lemma decimal_no c s v : decimal s v -> ~ is_digit c -> ~ In c s.
Proof.
  induction 1 as [a Ha|s v a Hs IH Ha]; intros Hc HI.
  - destruct HI as [->|[]]; auto.
  - apply in_app_or in HI. destruct HI as [HI|[->|[]]]; auto. apply IH; auto.
Qed.

Lemma go_int_no_dot s v : go_int s v -> ~ In "."%char s.
Proof.
  assert (Hd : ~ is_digit "."%char) by (unfold is_digit; cbn; lia).
  destruct 1 as [s v H _|s v H _|s v H _].
  - eapply decimal_no; eauto.
  - intros [E|HI]; [discriminate|]. eapply decimal_no; eauto.
  - intros [E|HI]; [discriminate|]. eapply decimal_no; eauto.
Qed.

Lemma Parse_spec s v : Parse s = Some v <-> version_string s v.
Proof.
  destruct v as [[a b] c]. unfold Parse, version_string. split.
  - pose proof (join_split "."%char s) as HJ.
    destruct (split_byte "."%char s) as [|t0 [|t1 [|t2 [|t3 ts]]]]; try discriminate.
    destruct (atoi t0) as [x|] eqn:E0; [|discriminate].
    destruct (atoi t1) as [y|] eqn:E1; [|discriminate].
    destruct (atoi t2) as [z|] eqn:E2; [|discriminate].
    destruct ((x <? 0) || (y <? 0) || (z <? 0)) eqn:E; [discriminate|].
    intros [= -> -> ->]. exists t0, t1, t2.
    apply atoi_spec in E0, E1, E2. repeat split; auto; try lia.
  - intros (ta & tb & tc & -> & Ha & Hb & Hc & Ha0 & Hb0 & Hc0).
    cbn [app lit list_ascii_of_string].
    rewrite split_byte_app by (eapply go_int_no_dot; eauto).
    rewrite split_byte_app by (eapply go_int_no_dot; eauto).
    rewrite split_byte_nosep by (eapply go_int_no_dot; eauto).
    apply atoi_spec in Ha, Hb, Hc. rewrite Ha, Hb, Hc.
    destruct ((a <? 0) || (b <? 0) || (c <? 0)) eqn:E; [lia|reflexivity].
Qed.

Lemma Later_spec s1 s2 b :
  Later s1 s2 = Some b <->
  exists v1 v2, version_string s1 v1 /\ version_string s2 v2 /\ (b = true <-> lex_later v1 v2).
Proof.
  unfold Later.
  destruct (Parse s1) as [v1|] eqn:E1.
  2:{ split; [discriminate|]. intros (v1 & v2 & H & _). apply Parse_spec in H. congruence. }
  destruct v1 as [[a1 b1] c1].
  destruct (Parse s2) as [v2|] eqn:E2.
  2:{ split; [discriminate|]. intros (v1 & v2 & _ & H & _). apply Parse_spec in H. congruence. }
  destruct v2 as [[a2 b2] c2].
  split.
  - intros [= <-]. exists (a1, b1, c1), (a2, b2, c2).
    split; [apply Parse_spec; assumption|]. split; [apply Parse_spec; assumption|].
    unfold lex_later.
    destruct (Z.eqb_spec a1 a2); [|lia]. destruct (Z.eqb_spec b1 b2); lia.
  - intros (v1 & v2 & H1 & H2 & H). apply Parse_spec in H1, H2.
    rewrite E1 in H1. rewrite E2 in H2. injection H1 as <-. injection H2 as <-.
    f_equal. unfold lex_later in H. destruct b.
    + assert (H' := proj1 H eq_refl).
      destruct (Z.eqb_spec a1 a2); [|lia]. destruct (Z.eqb_spec b1 b2); lia.
    + assert (H' : ~ (a1 > a2 \/ a1 = a2 /\ b1 > b2 \/ a1 = a2 /\ b1 = b2 /\ c1 > c2))
        by (intros X; apply H in X; discriminate).
      destruct (Z.eqb_spec a1 a2); [|lia]. destruct (Z.eqb_spec b1 b2); lia.
Qed.

Lemma version_string_fun s v w : version_string s v -> version_string s w -> v = w.
Proof. intros H1 H2. apply Parse_spec in H1, H2. congruence. Qed.

Lemma Later_error_iff s1 s2 :
  Later s1 s2 = None <->
  (forall v, ~ version_string s1 v) \/ (forall v, ~ version_string s2 v).
Proof.
  unfold Later.
  destruct (Parse s1) as [v1|] eqn:E1.
  - destruct v1 as [[a1 b1] c1]. destruct (Parse s2) as [v2|] eqn:E2.
    + destruct v2 as [[a2 b2] c2]. split; [discriminate|].
      intros [H|H]; exfalso; eapply H; apply Parse_spec; eauto.
    + split; [|reflexivity]. intros _. right. intros v Hv. apply Parse_spec in Hv. congruence.
  - split; [|reflexivity]. intros _. left. intros v Hv. apply Parse_spec in Hv. congruence.
Qed.

Lemma Later_irrefl s : Later s s <> Some true.
Proof.
  intros H. apply Later_spec in H. destruct H as (v & w & H1 & H2 & H).
  assert (v = w) by (eapply version_string_fun; eauto). subst w.
  destruct v as [[a b] c]. assert (X := proj1 H eq_refl). unfold lex_later in X. lia.
Qed.

Lemma Later_asym s t : Later s t = Some true -> Later t s = Some false.
Proof.
  intros H. apply Later_spec in H. destruct H as (v & w & H1 & H2 & H).
  apply Later_spec. exists w, v. repeat split; auto; [discriminate|].
  intros X. assert (Y := proj1 H eq_refl).
  destruct v as [[a b] c], w as [[a' b'] c']. unfold lex_later in *. lia.
Qed.

Lemma Later_trans s t u :
  Later s t = Some true -> Later t u = Some true -> Later s u = Some true.
Proof.
  intros H G. apply Later_spec in H, G.
  destruct H as (v & w & H1 & H2 & H), G as (w' & x & G1 & G2 & G).
  assert (w = w') by (eapply version_string_fun; eauto). subst w'.
  apply Later_spec. exists v, x. repeat split; auto. intros _.
  assert (Y := proj1 H eq_refl). assert (Z := proj1 G eq_refl).
  destruct v as [[a b] c], w as [[a' b'] c'], x as [[a2 b2] c2]. unfold lex_later in *. lia.
Qed.

(** Total: neither later than the other only when they denote the same version. *)
Lemma Later_total s t v w :
  version_string s v -> version_string t w ->
  Later s t = Some true \/ Later t s = Some true \/ v = w.
Proof.
  intros Hs Ht.
  destruct v as [[a b] c], w as [[a' b'] c'].
  assert (D : lex_later (a,b,c) (a',b',c') \/ lex_later (a',b',c') (a,b,c) \/ (a,b,c) = (a',b',c')).
  { unfold lex_later.
    assert (D1 : a > a' \/ a = a' \/ a' > a) by lia.
    assert (D2 : b > b' \/ b = b' \/ b' > b) by lia.
    assert (D3 : c > c' \/ c = c' \/ c' > c) by lia.
    destruct D1 as [?|[?|?]]; [lia| |lia].
    destruct D2 as [?|[?|?]]; [lia| |lia].
    destruct D3 as [?|[?|?]]; [lia| |lia]. right; right. congruence. }
  destruct D as [D|[D|D]].
  - left. apply Later_spec. exists (a,b,c), (a',b',c'). repeat split; auto.
  - right; left. apply Later_spec. exists (a',b',c'), (a,b,c). repeat split; auto.
  - right; right. exact D.
Qed.

(** C02 *)
Lemma validateVersion_char src cfg sM sm sp :
  version_string src (sM, sm, sp) ->
  (validateVersion src cfg = true <->
   exists M m p, version_string cfg (M, m, p) /\
     ((sM = 0 \/ M = 0) -> (M, m, p) = (sM, sm, sp)) /\
     (sM = 1 -> M = 1 -> m <= sm /\ p <= sp)).
Proof.
  intros Hs. apply Parse_spec in Hs. unfold validateVersion. rewrite Hs.
  destruct (Parse cfg) as [[[M m] p]|] eqn:E.
  - destruct (((sM =? 0) || (M =? 0)) && (negb (M =? sM) || negb (m =? sm) || negb (p =? sp))) eqn:E1.
    + split; [discriminate|]. intros (M' & m' & p' & H & H1 & _).
      apply Parse_spec in H. rewrite E in H. injection H as <- <- <-.
      assert (X : (M, m, p) = (sM, sm, sp)) by (apply H1; lia). injection X as -> -> ->. lia.
    + destruct ((sM =? 1) && (M =? 1) && ((m >? sm) || (p >? sp))) eqn:E2.
      * split; [discriminate|]. intros (M' & m' & p' & H & _ & H2).
        apply Parse_spec in H. rewrite E in H. injection H as <- <- <-.
        assert (m <= sm /\ p <= sp) by (apply H2; lia). lia.
      * split; [intros _|reflexivity]. exists M, m, p. split; [apply Parse_spec; assumption|].
        split.
        -- intros D. assert (M = sM) by lia. assert (m = sm) by lia. assert (p = sp) by lia. congruence.
        -- intros -> ->. lia.
  - split; [discriminate|]. intros (M & m & p & H & _). apply Parse_spec in H. congruence.
Qed.

Lemma version_string_source : version_string SourceVersion (1, 0, 4).
Proof. apply Parse_spec. vm_compute. reflexivity. Qed.

(** For the version actually compiled in (1.0.4) and config versions with major <= 1. *)
Lemma validateVersion_current cfg M m p :
  version_string cfg (M, m, p) -> M <= 1 ->
  (validateVersion SourceVersion cfg = true <-> M = 1 /\ Later cfg SourceVersion = Some false).
Proof.
  intros Hc HM. rewrite (validateVersion_char _ _ _ _ _ version_string_source).
  assert (Hpos : 0 <= M /\ 0 <= m /\ 0 <= p).
  { destruct Hc as (ta & tb & tc & _ & _ & _ & _ & H). exact H. }
  split.
  - intros (M' & m' & p' & H & H1 & H2).
    assert (E : (M', m', p') = (M, m, p)) by (eapply version_string_fun; eauto).
    injection E as -> -> ->.
    assert (M = 1).
    { destruct (Z.eq_dec M 0) as [->|]; [|lia]. specialize (H1 (or_intror eq_refl)). congruence. }
    split; [assumption|]. apply Later_spec. exists (M, m, p), (1, 0, 4).
    repeat split; auto using version_string_source; [discriminate|].
    intros L. unfold lex_later in L. specialize (H2 eq_refl H0). lia.
  - intros (-> & HL). exists 1, m, p. split; [assumption|]. split; [lia|]. intros _ _.
    apply Later_spec in HL. destruct HL as (v & w & Hv & Hw & HL).
    assert (v = (1, m, p)) by (eapply version_string_fun; eauto). subst v.
    assert (w = (1, 0, 4)) by (eapply version_string_fun; eauto using version_string_source). subst w.
    assert (~ lex_later (1, m, p) (1, 0, 4)) by (intros X; apply HL in X; discriminate).
    unfold lex_later in *. lia.
Qed.
