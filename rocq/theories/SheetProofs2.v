(** * The segments of all files together. *)
From Coq Require Import ZArith List Lia Bool Permutation.
From Verif Require Import SheetSpec LoopFacts ListFacts SheetProofs.
Import List ListNotations.
Local Open Scope nat_scope.

Lemma in_triples n x y z : In (x, y, z) (triples n) <-> x < n /\ y < n /\ z < n.
Proof.
  unfold triples. rewrite in_flat_map. split.
  - intros (z' & Hz & H). apply in_flat_map in H as (y' & Hy & H). apply in_map_iff in H as (x' & E & Hx). injection E as -> -> ->.
    apply in_seq in Hx, Hy, Hz. lia.
  - intros (Hx & Hy & Hz). exists z. split; [apply in_seq; lia|]. apply in_flat_map. exists y. split; [apply in_seq; lia|].
    apply in_map_iff. exists x. split; [reflexivity|apply in_seq; lia].
Qed.

Lemma nodup_flat_map {A B} (f : A -> list B) l : NoDup l -> (forall a, In a l -> NoDup (f a)) ->
  (forall a a' b, In a l -> In a' l -> In b (f a) -> In b (f a') -> a = a') -> NoDup (flat_map f l).
Proof.
  induction l as [|a l IH]; intros Hn Hf Hd; cbn [flat_map]; [constructor|].
  inversion Hn as [|? ? Ha Hl]; subst. apply NoDup_app'.
  - apply Hf. now left.
  - apply IH; [exact Hl| |]; intros; [apply Hf; now right|eapply Hd; eauto; now right].
  - intros b Hb Hb'. apply in_flat_map in Hb' as (a' & Ha' & Hb'). assert (a = a') as <- by (eapply Hd; eauto; [now left|now right]). contradiction.
Qed.

Lemma nodup_triples n : NoDup (triples n).
Proof.
  unfold triples. apply nodup_flat_map; [apply seq_NoDup| |].
  - intros z _. apply nodup_flat_map; [apply seq_NoDup| |].
    + intros y _. apply FinFun.Injective_map_NoDup; [|apply seq_NoDup]. intros a b E. now injection E.
    + intros y y' b _ _ H1 H2. apply in_map_iff in H1 as (x1 & <- & _), H2 as (x2 & E & _). now injection E.
  - intros z z' b _ _ H1 H2. apply in_flat_map in H1 as (y1 & _ & H1), H2 as (y2 & _ & H2).
    apply in_map_iff in H1 as (x1 & <- & _), H2 as (x2 & E & _). now injection E.
Qed.

(** Shifted triples of one segment. *)
Definition shifted (sw : nat) (c : nat * nat * nat) : list (nat * nat * nat) :=
  let '(cx, cy, cz) := c in map (fun t => let '(x, y, z) := t in (cx * sw + x, cy * sw + y, cz * sw + z)) (triples sw).

Lemma in_shifted sw cx cy cz X Y Z : In (X, Y, Z) (shifted sw (cx, cy, cz)) <->
  cx * sw <= X < (cx + 1) * sw /\ cy * sw <= Y < (cy + 1) * sw /\ cz * sw <= Z < (cz + 1) * sw.
Proof.
  unfold shifted. rewrite in_map_iff. split.
  - intros (((x, y), z) & E & H). apply in_triples in H. injection E as <- <- <-. nia.
  - intros (HX & HY & HZ). exists (X - cx * sw, Y - cy * sw, Z - cz * sw). split.
    + repeat f_equal; lia.
    + apply in_triples. nia.
Qed.

Lemma cell_unique sw c c' X : c * sw <= X < (c + 1) * sw -> c' * sw <= X < (c' + 1) * sw -> c = c'.
Proof. intros H H'. destruct (Nat.lt_trichotomy c c') as [L|[L|L]]; [exfalso; nia|exact L|exfalso; nia]. Qed.

Lemma cells_partition sw C : 0 < sw -> 0 < C ->
  Permutation (flat_map (fun idx => shifted sw (cell_of C idx)) (seq 0 (C * C * C))) (triples (C * sw)).
Proof.
  intros Hs HC. apply NoDup_Permutation.
  - apply nodup_flat_map; [apply seq_NoDup| |].
    + intros idx _. unfold shifted, cell_of. apply FinFun.Injective_map_NoDup; [|apply nodup_triples].
      intros ((x, y), z) ((x', y'), z') E. injection E as E1 E2 E3. repeat f_equal; lia.
    + intros i j ((X, Y), Z) Hi Hj H1 H2. apply in_seq in Hi, Hj. unfold cell_of in *. apply in_shifted in H1, H2.
      destruct H1 as (X1 & Y1 & Z1), H2 as (X2 & Y2 & Z2).
      pose proof (cell_unique _ _ _ _ X1 X2) as Ex. pose proof (cell_unique _ _ _ _ Y1 Y2) as Ey. pose proof (cell_unique _ _ _ _ Z1 Z2) as Ez.
      clear X1 X2 Y1 Y2 Z1 Z2.
      rewrite <- !Nat.div_div in Ez by lia.
      rewrite (Nat.div_mod i C), (Nat.div_mod j C) by lia. rewrite Ex. f_equal. f_equal.
      rewrite (Nat.div_mod (i / C) C), (Nat.div_mod (j / C) C) by lia. now rewrite Ey, Ez.
  - apply nodup_triples.
  - intros ((X, Y), Z). rewrite in_triples, in_flat_map. split.
    + intros (idx & Hi & H). apply in_seq in Hi. unfold cell_of in H. apply in_shifted in H.
      pose proof (Nat.mod_upper_bound idx C ltac:(lia)). pose proof (Nat.mod_upper_bound (idx / C) C ltac:(lia)).
      assert (idx / (C * C) < C) by (apply Nat.div_lt_upper_bound; nia).
      destruct H as (A & B & D).
      assert (G : forall c V, c < C -> V < (c + 1) * sw -> V < C * sw) by (intros c V Hc HV; nia).
      split; [|split]; eapply G; try (apply A || apply B || apply D); assumption.
    + intros (HX & HY & HZ). exists (X / sw + C * (Y / sw + C * (Z / sw))).
      assert (D : forall V, V < C * sw -> V / sw < C /\ V / sw * sw <= V < (V / sw + 1) * sw).
      { intros V HV. pose proof (Nat.div_mod V sw ltac:(lia)). pose proof (Nat.mod_upper_bound V sw ltac:(lia)).
        split; [apply Nat.div_lt_upper_bound; lia|nia]. }
      destruct (D X HX) as (X1 & X2), (D Y HY) as (Y1 & Y2), (D Z HZ) as (Z1 & Z2).
      set (cx := X / sw) in *. set (cy := Y / sw) in *. set (cz := Z / sw) in *. clearbody cx cy cz.
      split.
      * apply in_seq. assert (cy + C * cz < C * C) by nia. nia.
      * unfold cell_of.
        assert (E1 : (cx + C * (cy + C * cz)) mod C = cx) by (rewrite Nat.mul_comm, Nat.mod_add by lia; now apply Nat.mod_small).
        assert (E2 : (cx + C * (cy + C * cz)) / C = cy + C * cz) by (rewrite Nat.mul_comm, Nat.div_add by lia; now rewrite Nat.div_small).
        assert (E3 : (cy + C * cz) mod C = cy) by (rewrite Nat.mul_comm, Nat.mod_add by lia; now apply Nat.mod_small).
        assert (E4 : (cy + C * cz) / C = cz) by (rewrite Nat.mul_comm, Nat.div_add by lia; now rewrite Nat.div_small).
        rewrite <- Nat.div_div by lia. rewrite E1, E2, E3, E4. apply in_shifted. auto.
Qed.

Lemma map_flat_map {A B C} (f : B -> C) (g : A -> list B) l : map f (flat_map g l) = flat_map (fun a => map f (g a)) l.
Proof. induction l as [|a l IH]; cbn [flat_map map]; [reflexivity|]. now rewrite map_app, IH. Qed.

Lemma segment_triples sw gw pts : segment sw gw pts = map (fun t => let '(x, y, z) := t in grid_point gw pts x y z) (triples sw).
Proof.
  unfold segment, triples. rewrite map_flat_map. apply flat_map_ext. intros z. rewrite map_flat_map. apply flat_map_ext. intros y.
  now rewrite map_map.
Qed.

Lemma flat_map_const_length {A B} (f : A -> list B) k l : (forall a, length (f a) = k) -> length (flat_map f l) = length l * k.
Proof. intros H. induction l as [|a l IH]; cbn [flat_map length]; [reflexivity|]. rewrite app_length, IH, H. lia. Qed.

Lemma triples_length n : length (triples n) = n * n * n.
Proof.
  unfold triples. rewrite (flat_map_const_length _ (n * n)), seq_length; [lia|]. intros z.
  rewrite (flat_map_const_length _ n), seq_length; [lia|]. intros y. now rewrite map_length, seq_length.
Qed.
