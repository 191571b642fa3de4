(** * General list lemmas missing from the standard library of Coq 8.16. *)
From Coq Require Import List Arith Lia.
Import ListNotations.

Lemma skipn_skipn {A} (a b : nat) (l : list A) : skipn a (skipn b l) = skipn (b + a) l.
Proof. revert l; induction b; intros l; [reflexivity|]. destruct l; [cbn; apply skipn_nil|]. cbn. apply IHb. Qed.

Lemma Forall2_length {A B} (R : A -> B -> Prop) l1 l2 : Forall2 R l1 l2 -> length l1 = length l2.
Proof. induction 1; cbn; congruence. Qed.

Lemma nth_error_ext {A} (l1 l2 : list A) : (forall i, nth_error l1 i = nth_error l2 i) -> l1 = l2.
Proof.
  revert l2; induction l1 as [|a l1 IH]; intros [|b l2] H; [reflexivity| | |].
  - specialize (H 0); discriminate.
  - specialize (H 0); discriminate.
  - f_equal; [specialize (H 0); cbn in H; congruence|]. apply IH. intros i. apply (H (S i)).
Qed.

Lemma NoDup_app' {A} (l1 l2 : list A) : NoDup l1 -> NoDup l2 -> (forall a, In a l1 -> ~ In a l2) -> NoDup (l1 ++ l2).
Proof.
  induction l1 as [|a l1 IH]; intros N1 N2 H; [exact N2|]. inversion N1; subst. cbn. constructor.
  - intros Q. apply in_app_or in Q. destruct Q as [Q|Q]; [contradiction|]. apply (H a); [now left|exact Q].
  - apply IH; auto. intros b Hb. apply H. now right.
Qed.

Lemma NoDup_flat_map' {A B} (f : A -> list B) l : NoDup l -> (forall a, In a l -> NoDup (f a)) ->
  (forall a b x, In a l -> In b l -> In x (f a) -> In x (f b) -> a = b) -> NoDup (flat_map f l).
Proof.
  induction l as [|a l IH]; intros N H1 H2; [constructor|]. inversion N; subst. cbn. apply NoDup_app'.
  - apply H1; now left.
  - apply IH; auto; [intros; apply H1; now right|]. intros b d x Hb Hd. apply H2; now right.
  - intros x Hx Hin. apply in_flat_map in Hin. destruct Hin as (b & Hb & Hxb).
    assert (a = b) by (apply (H2 a b x); auto; [now left|now right]). subst. contradiction.
Qed.

Lemma NoDup_map_in {A B} (f : A -> B) l : NoDup l -> (forall a b, In a l -> In b l -> f a = f b -> a = b) -> NoDup (map f l).
Proof.
  induction l as [|a l IH]; intros N H; [constructor|]. inversion N; subst. cbn. constructor.
  - intros Q. apply in_map_iff in Q. destruct Q as (b & E & Hb). assert (b = a) by (apply H; auto; [now right|now left]). now subst.
  - apply IH; auto. intros; apply H; auto; now right.
Qed.
