(** * Proofs about the columns and the names built from them. *)
From Coq Require Import Lia List Sorting.Sorted.
From Verif Require Import GoBase GoBaseFacts LoopBase LoopFacts ListFacts EnvModel EnvSpec EnvProofs.
Import List ListNotations.
Local Open Scope nat_scope.

(** ** Members and order of [combos] *)

Lemma combos_In cols al s row : length al = length cols ->
  (forall j, j < length cols -> nth j al true = true -> s < length (nth j cols [])) ->
  In row (combos cols al s) <-> is_row cols al s row.
Proof.
  revert al row. induction cols as [|c cols IH]; intros [|a al] row H Hs; try discriminate H.
  - cbn [combos In]. split.
    + intros [<-|[]]. split; [reflexivity|]. intros j c al v Q. destruct j; discriminate Q.
    + intros [Q _]. destruct row; [now left|discriminate].
  - assert (Hs' : forall j, j < length cols -> nth j al true = true -> s < length (nth j cols [])).
    { intros j Hj Q. apply (Hs (S j)); [cbn; lia|exact Q]. }
    assert (IH' := fun row => IH al row ltac:(cbn in H; lia) Hs').
    assert (R : forall v rest, is_row (c :: cols) (a :: al) s (v :: rest) <->
        (if a then nth_error c s = Some v else In v c) /\ is_row cols al s rest).
    { intros v rest. split.
      - intros [Q1 Q2]. split; [exact (Q2 0 c a v eq_refl eq_refl eq_refl)|]. split; [cbn in Q1; lia|].
        intros j c' al' v' W1 W2 W3. exact (Q2 (S j) c' al' v' W1 W2 W3).
      - intros [Q1 [Q2 Q3]]. split; [cbn; lia|]. intros [|j] c' al' v' W1 W2 W3.
        + injection W1 as <-. injection W2 as <-. injection W3 as <-. exact Q1.
        + exact (Q3 j c' al' v' W1 W2 W3). }
    cbn [combos]. destruct a.
    + assert (Hlt : s < length c) by (apply (Hs 0); [cbn; lia|reflexivity]).
      pose proof (nth_error_nth' c ANil Hlt) as En.
      rewrite in_map_iff. split.
      * intros (rest & <- & Hr). apply R. split; [exact En|]. now apply IH'.
      * intros Q. destruct row as [|v rest]; [destruct Q; discriminate|]. apply R in Q. destruct Q as [Q1 Q2].
        exists rest. split; [congruence|]. now apply IH'.
    + rewrite in_flat_map. split.
      * intros (rest & Hr & Hv). apply in_map_iff in Hv. destruct Hv as (v & <- & Hv). apply R. split; [exact Hv|]. now apply IH'.
      * intros Q. destruct row as [|v rest]; [destruct Q; discriminate|]. apply R in Q. destruct Q as [Q1 Q2].
        exists rest. split; [now apply IH'|]. apply in_map_iff. eauto.
Qed.

Lemma SS_app {A} (R : A -> A -> Prop) l1 l2 : StronglySorted R l1 -> StronglySorted R l2 ->
  (forall a b, In a l1 -> In b l2 -> R a b) -> StronglySorted R (l1 ++ l2).
Proof.
  induction l1 as [|a l1 IH]; intros S1 S2 H; [exact S2|]. inversion S1; subst. cbn. constructor.
  - apply IH; auto. intros; apply H; [now right|assumption].
  - apply Forall_app. split; [assumption|]. apply Forall_forall. intros b Hb. apply H; [now left|exact Hb].
Qed.

Lemma SS_map {A B} (R : A -> A -> Prop) (R' : B -> B -> Prop) (f : A -> B) l :
  (forall a b, R a b -> R' (f a) (f b)) -> StronglySorted R l -> StronglySorted R' (map f l).
Proof.
  intros H S. induction S as [|a l S IH F]; [constructor|]. cbn. constructor; [exact IH|].
  apply Forall_forall. intros b Hb. apply in_map_iff in Hb. destruct Hb as (x & <- & Hx). apply H.
  now apply (proj1 (Forall_forall _ _) F).
Qed.

Lemma row_before_cons v w r1 r2 : row_before r1 r2 -> row_before (v :: r1) (w :: r2).
Proof.
  intros (j & a & b & H1 & H2 & H3 & H4). exists (S j), a, b. repeat split; try assumption.
  intros [|j'] Hj; [lia|]. apply H4. lia.
Qed.

Lemma row_before_head v w r : arg_lt v w -> row_before (v :: r) (w :: r).
Proof.
  intros H. exists 0, v, w. repeat split; try assumption. intros [|j'] Hj; [lia|reflexivity].
Qed.

Lemma row_before_irrefl r : ~ row_before r r.
Proof.
  intros (j & a & b & H1 & H2 & H3 & _). rewrite H1 in H2. injection H2 as <-. destruct a; cbn in H3; lia.
Qed.

Lemma in_order_NoDup rows : in_order rows -> NoDup rows.
Proof.
  intros S. induction S as [|a l S IH F]; constructor; [|exact IH]. intros Q.
  apply (row_before_irrefl a). now apply (proj1 (Forall_forall _ _) F).
Qed.

Lemma combos_order cols al s : length al = length cols ->
  (forall j, j < length cols -> nth j al true = false -> StronglySorted arg_lt (nth j cols [])) ->
  in_order (combos cols al s).
Proof.
  unfold in_order. revert al. induction cols as [|c cols IH]; intros [|a al] H Hs; try discriminate H.
  - cbn. constructor; constructor.
  - assert (IH' : StronglySorted row_before (combos cols al s)).
    { apply IH; [cbn in H; lia|]. intros j Hj. apply (Hs (S j)). cbn; lia. }
    cbn [combos]. destruct a.
    + eapply SS_map; [|exact IH']. intros; now apply row_before_cons.
    + assert (Hc : StronglySorted arg_lt c) by (apply (Hs 0); [cbn; lia|reflexivity]).
      induction IH' as [|rest l S IHl F]; [constructor|]. cbn [flat_map]. apply SS_app.
      * eapply SS_map; [|exact Hc]. intros; now apply row_before_head.
      * exact IHl.
      * intros r1 r2 H1 H2. apply in_map_iff in H1. destruct H1 as (v & <- & _).
        apply in_flat_map in H2. destruct H2 as (rest2 & H2 & H3). apply in_map_iff in H3. destruct H3 as (w & <- & _).
        apply row_before_cons. now apply (proj1 (Forall_forall _ _) F).
Qed.

Lemma combos_NoDup cols al s : length al = length cols ->
  (forall j, j < length cols -> nth j al true = false -> NoDup (nth j cols [])) ->
  NoDup (combos cols al s).
Proof.
  revert al. induction cols as [|c cols IH]; intros [|a al] H Hs; try discriminate H.
  - cbn. constructor; [easy|constructor].
  - assert (IH' : NoDup (combos cols al s)).
    { apply IH; [cbn in H; lia|]. intros j Hj. apply (Hs (S j)). cbn; lia. }
    cbn [combos]. destruct a.
    + apply NoDup_map_in; [exact IH'|]. intros x y _ _ [= E]. exact E.
    + apply NoDup_flat_map'; [exact IH'| |].
      * intros rest _. apply NoDup_map_in; [apply (Hs 0); [cbn; lia|reflexivity]|]. intros x y _ _ [= E]. exact E.
      * intros r1 r2 x _ _ H1 H2. apply in_map_iff in H1, H2. destruct H1 as (? & <- & _), H2 as (? & [= _ E] & _). now symmetry.
Qed.

(** ** Integer ranges *)

Lemma int_range_some lo hi l : int_range lo hi = Some l ->
  (lo <= hi + 1)%Z /\ l = map (fun i => (Z.of_nat i + lo)%Z) (seq 0 (Z.to_nat (hi - lo + 1))).
Proof.
  unfold int_range. destruct (Z.ltb_spec (hi - lo + 1) 0); [discriminate|]. intros [= <-]. split; [lia|reflexivity].
Qed.

Lemma int_range_ok lo hi : (lo <= hi + 1)%Z -> exists l, int_range lo hi = Some l.
Proof. intros H. unfold int_range. destruct (Z.ltb_spec (hi - lo + 1) 0); [lia|]. eauto. Qed.

Lemma int_range_length lo hi l : int_range lo hi = Some l -> Z.of_nat (length l) = (hi - lo + 1)%Z.
Proof. intros H. apply int_range_some in H. destruct H as [H ->]. rewrite map_length, seq_length. lia. Qed.

Lemma int_range_nth lo hi l i z : int_range lo hi = Some l ->
  nth_error l i = Some z <-> (z = lo + Z.of_nat i /\ z <= hi)%Z.
Proof.
  intros H. apply int_range_some in H. destruct H as [H ->]. rewrite nth_error_map.
  destruct (Nat.lt_ge_cases i (Z.to_nat (hi - lo + 1))) as [Hi|Hi].
  - rewrite (nth_error_nth' _ 0) by (now rewrite seq_length). rewrite seq_nth by exact Hi. cbn [option_map].
    split; [intros [= <-]; lia|]. intros [-> _]. f_equal. lia.
  - rewrite (proj2 (nth_error_None _ _)) by (now rewrite seq_length). cbn. split; [discriminate|lia].
Qed.

Lemma int_range_In lo hi l z : int_range lo hi = Some l -> In z l <-> (lo <= z <= hi)%Z.
Proof.
  intros H. split.
  - intros Q. apply In_nth_error in Q. destruct Q as [i Q]. apply (int_range_nth _ _ _ _ _ H) in Q. lia.
  - intros Q. apply (nth_error_In l (Z.to_nat (z - lo))). apply (int_range_nth _ _ _ _ _ H). lia.
Qed.

Lemma seq_SS s n : StronglySorted lt (seq s n).
Proof.
  revert s. induction n as [|n IH]; intros s; [constructor|]. cbn. constructor; [apply IH|].
  apply Forall_forall. intros x Hx. apply in_seq in Hx. lia.
Qed.

Lemma int_range_sorted lo hi l : int_range lo hi = Some l -> StronglySorted arg_lt (map AInt l).
Proof.
  intros H. apply int_range_some in H. destruct H as [H ->]. rewrite map_map.
  apply (SS_map lt); [|apply seq_SS]. intros a b Hab. cbn. lia.
Qed.

(** ** Scale factors *)

Lemma blank_trim s : blank s <-> trim sp s = [].
Proof.
  rewrite trim_nil. unfold blank. split.
  - intros H. induction s as [|a s IH]; [reflexivity|]. cbn. rewrite (H a) by now left. f_equal. apply IH. intros; apply H; now right.
  - intros H a Ha. rewrite H in Ha. now apply repeat_spec in Ha.
Qed.

Lemma trimmed_trim s t : trimmed s t <-> t = trim sp s.
Proof.
  split.
  - intros (n & m & -> & H1 & H2). rewrite trim_pad. symmetry. apply trim_id.
    + destruct t as [|a t]; [discriminate|]. cbn. intros [= Q]. exact (H1 a t eq_refl Q).
    + destruct t as [|a t _] using rev_ind; [discriminate|]. rewrite rev_app_distr. cbn. intros [= Q]. exact (H2 a t eq_refl Q).
  - intros ->. destruct (trim_spec sp s) as (n & m & H1 & H2 & H3). exists n, m. split; [exact H1|]. split.
    + intros a t' E Q. rewrite E in H2. cbn in H2. congruence.
    + intros a t' E Q. rewrite E, rev_app_distr in H3. cbn in H3. congruence.
Qed.

Lemma scale_lines_spec text ls : text_lines text ls -> forall l, scale_factors ls l <-> l = scale_lines text.
Proof.
  intros (H1 & H2 & H3) l. unfold scale_lines. rewrite <- H1. rewrite split_join by (try assumption; now apply Forall_forall).
  clear. revert l. induction ls as [|s ls IH]; intros l; cbn [map filter].
  - split; [intros Q; now inversion Q|intros ->; constructor].
  - destruct (length (trim sp s) =? 0) eqn:E; cbn [negb].
    + apply Nat.eqb_eq, length_zero_iff_nil in E. split.
      * intros Q. inversion Q; subst; [now apply IH|]. exfalso. now apply blank_trim in E.
      * intros ->. apply sf_blank; [now apply blank_trim|]. now apply IH.
    + apply Nat.eqb_neq in E. assert (B : ~ blank s) by (rewrite blank_trim; intros Q; apply E; now rewrite Q). split.
      * intros Q. inversion Q; subst; [contradiction|]. f_equal; [now apply trimmed_trim|]. now apply IH.
      * intros ->. apply sf_line; [exact B|now apply trimmed_trim|]. now apply IH.
Qed.

Lemma text_lines_split text : text_lines text (split_byte nl text).
Proof.
  split; [apply join_split|]. split; [apply split_byte_nonnil|]. apply Forall_forall. apply split_byte_no.
Qed.

(** ** Meanings *)

Lemma firstn5 (m : bytes) : 5 <= length m -> firstn 5 m = lit "Block" -> m = lit "Block" ++ skipn 5 m.
Proof. intros _ <-. symmetry. apply firstn_skipn. Qed.

Lemma block_prefix_spec m : block_prefix m = true <-> exists s, m = lit "Block" ++ s.
Proof.
  unfold block_prefix. rewrite andb_true_iff, Nat.leb_le, beq_true. split.
  - intros [H1 H2]. exists (skipn 5 m). now apply firstn5.
  - intros (s & ->). split; [rewrite app_length; cbn; lia|reflexivity].
Qed.

Lemma meaning_block_inv m k : meaning_block m k ->
  exists s, m = lit "Block" ++ s /\ (s = [] /\ k = 0 \/ atoi s = Some (Z.of_nat k)).
Proof.
  intros H. destruct H as [|s k A]; [exists []|exists s]; split; auto.
Qed.

Lemma meaning_block_fun m k k' : meaning_block m k -> meaning_block m k' -> k = k'.
Proof.
  intros H1 H2. apply meaning_block_inv in H1, H2. destruct H1 as (s & -> & H1), H2 as (s2 & E & H2).
  apply app_inv_head in E. subst s2. destruct H1 as [[-> ->]|H1], H2 as [[E ->]|H2]; subst; try discriminate; [reflexivity|].
  rewrite H1 in H2. injection H2. lia.
Qed.

Lemma meaning_block_not m k : meaning_block m k -> m <> lit "Snapshot" /\ m <> lit "ScaleFactor".
Proof. intros H. inversion H; subst; cbn; split; discriminate. Qed.

(** What GetColumn's answer means. *)
Definition col_ok (info : pinfo) (m : bytes) (c : list arg) (a : bool) : Prop :=
  if a then per_snapshot m /\ Z.of_nat (length c) = (snapMax info - snapMin info + 1)%Z /\
            (forall snap v, (snapMin info <= snap)%Z ->
               value_ok info snap m v <-> (snap <= snapMax info)%Z /\ nth_error c (Z.to_nat (snap - snapMin info)) = Some v \/
                                          (m = lit "Snapshot" /\ v = AInt snap /\ (snapMax info < snap)%Z))
  else ~ per_snapshot m /\ StronglySorted arg_lt c /\ forall snap v, value_ok info snap m v <-> In v c.

Lemma lit_neq1 : lit "ScaleFactor" <> lit "Snapshot". Proof. discriminate. Qed.

Lemma get_column_ok info m c a : get_column info m = Ok (c, a) -> col_ok info m c a.
Proof.
  unfold get_column. destruct (beq m (lit "ScaleFactor")) eqn:E1.
  { apply beq_true in E1. subst m. destruct (scaleFactorFile info) as [text|] eqn:Ef; [|discriminate].
    destruct (Z.eqb_spec (Z.of_nat (length (scale_lines text))) (snapMax info - snapMin info + 1)) as [El|]; [|discriminate].
    cbn [negb]. intros [= <- <-]. split; [now right|]. rewrite map_length. split; [exact El|].
    intros snap v Hs. split.
    - intros Q. inversion Q as [Q1 Q2|text' ls l s Q1 Q2 Q3 Q4 Q5 Q6|m k lo hi b Q1 Q2 Q3 Q4 Q5 Q6]; subst.
      + rewrite Ef in Q1. injection Q1 as <-. apply (scale_lines_spec _ _ Q2) in Q3. subst l. left. split.
        * assert (Z.to_nat (snap - snapMin info) < length (scale_lines text)) by (apply nth_error_Some; congruence). lia.
        * now rewrite nth_error_map, Q4.
      + apply meaning_block_not in Q1. now destruct Q1.
    - intros [[Q1 Q2]|(Q & _)]; [|now apply lit_neq1 in Q]. rewrite nth_error_map in Q2.
      destruct (nth_error (scale_lines text) _) as [s|] eqn:En; [|discriminate]. injection Q2 as <-.
      eapply vo_scale; [exact Ef|apply text_lines_split| |exact En]. apply (scale_lines_spec _ _ (text_lines_split text)). reflexivity. }
  destruct (beq m (lit "Snapshot")) eqn:E2.
  { apply beq_true in E2. subst m. destruct (int_range _ _) as [l|] eqn:El; [|discriminate]. intros [= <- <-].
    split; [now left|]. rewrite map_length. split; [now apply int_range_length|]. intros snap v Hs. split.
    - intros Q. inversion Q as [Q1 Q2|text' ls l' s Q1 Q2 Q3 Q4 Q5 Q6|m k lo hi b Q1 Q2 Q3 Q4 Q5 Q6]; subst.
      + destruct (Z.le_gt_cases snap (snapMax info)) as [Hle|Hgt]; [left|right; auto]. split; [exact Hle|].
        rewrite nth_error_map, (proj2 (int_range_nth _ _ _ _ snap El)); [reflexivity|lia].
      + apply meaning_block_not in Q1. now destruct Q1.
    - intros [[Q1 Q2]|(_ & -> & _)]; [|constructor]. rewrite nth_error_map in Q2.
      destruct (nth_error l _) as [s|] eqn:En; [|discriminate]. injection Q2 as <-. apply (int_range_nth _ _ _ _ _ El) in En.
      replace s with snap by lia. constructor. }
  destruct (block_prefix m) eqn:E3; [|discriminate].
  assert (Np : ~ per_snapshot m). { apply beq_false in E1, E2. intros [Q|Q]; contradiction. }
  apply block_prefix_spec in E3. destruct E3 as (s & ->). intros H.
  assert (Hm : exists k, meaning_block (lit "Block" ++ s) k /\ exists lo hi l, nth_error (blockMins info) k = Some lo /\
     nth_error (blockMaxes info) k = Some hi /\ int_range lo hi = Some l /\ c = map AInt l /\ a = false).
  { assert (Hi : exists idx, (if 5 <? length (lit "Block" ++ s) then atoi (skipn 5 (lit "Block" ++ s)) else Some 0%Z) = Some idx /\
       ((0 <= idx)%Z -> meaning_block (lit "Block" ++ s) (Z.to_nat idx))).
    { destruct (5 <? length (lit "Block" ++ s)) eqn:El.
      - change (skipn 5 (lit "Block" ++ s)) with s in *. destruct (atoi s) as [idx|] eqn:Ea; [|discriminate]. exists idx. split; [reflexivity|].
        intros Hn. constructor. rewrite Ea. f_equal. lia.
      - exists 0%Z. split; [reflexivity|]. intros _. apply Nat.ltb_ge in El. rewrite app_length in El. destruct s; [|cbn in El; lia]. constructor. }
    destruct Hi as (idx & Ei & Hi). rewrite Ei in H. destruct (Z.ltb_spec idx 0) as [|Hn]; [discriminate|].
    exists (Z.to_nat idx). split; [now apply Hi|].
    destruct (nth_error (blockMaxes info) (Z.to_nat idx)) as [hi|]; [|discriminate].
    destruct (nth_error (blockMins info) (Z.to_nat idx)) as [lo|]; [|discriminate].
    destruct (int_range lo hi) as [l|] eqn:El; [|discriminate]. injection H as <- <-. exists lo, hi, l. repeat split; auto. }
  destruct Hm as (k & Mk & lo & hi & l & H1 & H2 & H3 & -> & ->). split; [exact Np|]. split; [now apply int_range_sorted in H3|].
  intros snap v. split.
  - intros Q. inversion Q as [Q1 Q2|text' ls l' s' Q1 Q2 Q3 Q4 Q5 Q6|m' k' lo' hi' b Q1 Q2 Q3 Q4 Q5 Q6].
    subst. pose proof (meaning_block_fun _ _ _ Mk Q1). subst k'. rewrite H1 in Q2. rewrite H2 in Q3. injection Q2 as <-. injection Q3 as <-.
    apply in_map. now apply (int_range_In _ _ _ _ H3).
  - intros Q. apply in_map_iff in Q. destruct Q as (b & <- & Hb). apply (int_range_In _ _ _ _ H3) in Hb. econstructor; eassumption.
Qed.

Lemma get_column_legal info m : legal_meaning info m -> exists c a, get_column info m = Ok (c, a).
Proof.
  intros [[-> H]|[(-> & text & ls & l & H1 & H2 & H3 & H4)|(k & lo & hi & H1 & H2 & H3 & H4)]]; unfold get_column.
  - change (beq (lit "Snapshot") (lit "ScaleFactor")) with false. change (beq (lit "Snapshot") (lit "Snapshot")) with true. cbn iota.
    destruct (int_range_ok (snapMin info) (snapMax info)) as (l & ->); [lia|]. eauto.
  - change (beq (lit "ScaleFactor") (lit "ScaleFactor")) with true. cbn iota. rewrite H1. apply (scale_lines_spec _ _ H2) in H3. subst l.
    rewrite (proj2 (Z.eqb_eq _ _) H4). cbn. eauto.
  - pose proof (meaning_block_not _ _ H1) as [N1 N2]. rewrite (proj2 (beq_false _ _) N1), (proj2 (beq_false _ _) N2).
    destruct (int_range_ok lo hi H4) as (l & El).
    inversion H1 as [E|s k' A E]; subst.
    + change (block_prefix (lit "Block")) with true. cbn iota. change (5 <? length (lit "Block")) with false. cbn iota.
      change (0 <? 0)%Z with false. cbn iota. change (Z.to_nat 0) with 0. rewrite H2, H3, El. eauto.
    + rewrite (proj2 (block_prefix_spec _)) by eauto.
      replace (5 <? length (lit "Block" ++ s)) with true.
      2:{ symmetry. apply Nat.ltb_lt. rewrite app_length. destruct s; [discriminate A|]. cbn. lia. }
      change (skipn 5 (lit "Block" ++ s)) with s. rewrite A. destruct (Z.ltb_spec (Z.of_nat k) 0); [lia|].
      rewrite Nat2Z.id, H2, H3, El. eauto.
Qed.

Lemma get_column_legal_rev info m c a : get_column info m = Ok (c, a) -> legal_meaning info m.
Proof.
  intros H. unfold get_column in H. destruct (beq m (lit "ScaleFactor")) eqn:E1.
  { apply beq_true in E1. subst m. right. left. destruct (scaleFactorFile info) as [text|] eqn:Ef; [|discriminate].
    destruct (Z.eqb_spec (Z.of_nat (length (scale_lines text))) (snapMax info - snapMin info + 1)) as [El|]; [|discriminate].
    split; [reflexivity|]. exists text, (split_byte nl text), (scale_lines text). split; [reflexivity|].
    split; [apply text_lines_split|]. split; [now apply (scale_lines_spec _ _ (text_lines_split text))|exact El]. }
  destruct (beq m (lit "Snapshot")) eqn:E2.
  { apply beq_true in E2. subst m. left. split; [reflexivity|]. destruct (int_range _ _) as [l|] eqn:El; [|discriminate].
    apply int_range_some in El. tauto. }
  right. right. destruct (block_prefix m) eqn:E3; [|discriminate]. apply block_prefix_spec in E3. destruct E3 as (s & ->).
  assert (Hi : exists idx, (if 5 <? length (lit "Block" ++ s) then atoi (skipn 5 (lit "Block" ++ s)) else Some 0%Z) = Some idx /\
       ((0 <= idx)%Z -> meaning_block (lit "Block" ++ s) (Z.to_nat idx))).
  { destruct (5 <? length (lit "Block" ++ s)) eqn:El.
    - change (skipn 5 (lit "Block" ++ s)) with s in *. destruct (atoi s) as [idx|] eqn:Ea; [|discriminate]. exists idx. split; [reflexivity|].
      intros Hn. constructor. rewrite Ea. f_equal. lia.
    - exists 0%Z. split; [reflexivity|]. intros _. apply Nat.ltb_ge in El. rewrite app_length in El. destruct s; [|cbn in El; lia]. constructor. }
  destruct Hi as (idx & Ei & Hi). rewrite Ei in H. destruct (Z.ltb_spec idx 0) as [|Hn]; [discriminate|].
  destruct (nth_error (blockMaxes info) (Z.to_nat idx)) as [hi|] eqn:Eh; [|discriminate].
  destruct (nth_error (blockMins info) (Z.to_nat idx)) as [lo|] eqn:Elo; [|discriminate].
  destruct (int_range lo hi) as [l|] eqn:El; [|discriminate]. apply int_range_some in El.
  exists (Z.to_nat idx), lo, hi. repeat split; auto. tauto.
Qed.

(** ** The whole initialisation *)

Lemma get_columns_ok info ms cs als : get_columns info ms = Ok (cs, als) ->
  length cs = length ms /\ length als = length ms /\
  forall j, j < length ms -> col_ok info (nth j ms []) (nth j cs []) (nth j als true).
Proof.
  revert cs als. induction ms as [|m ms IH]; intros cs als H; cbn [get_columns] in H.
  - injection H as <- <-. repeat split. cbn. intros; lia.
  - destruct (get_column info m) as [[c a]| |] eqn:Em; try discriminate. cbn [bindr] in H.
    destruct (get_columns info ms) as [[cs' als']| |]; try discriminate. cbn [bindr fst snd] in H. injection H as <- <-.
    destruct (IH cs' als' eq_refl) as (L1 & L2 & K). cbn [length]. repeat split; try lia.
    intros [|j] Hj; [cbn; now apply get_column_ok|]. cbn [nth]. apply K. lia.
Qed.

Lemma get_columns_legal info ms : (exists cs als, get_columns info ms = Ok (cs, als)) <-> Forall (legal_meaning info) ms.
Proof.
  induction ms as [|m ms IH]; cbn [get_columns].
  - split; [constructor|]. intros _. eauto.
  - split.
    + intros (cs & als & H). destruct (get_column info m) as [[c a]| |] eqn:Em; try discriminate. cbn [bindr] in H.
      destruct (get_columns info ms) as [[cs' als']| |]; try discriminate. constructor; [now apply get_column_legal_rev in Em|].
      apply IH. eauto.
    + intros H. inversion H; subst. destruct (get_column_legal info m) as (c & a & ->); [assumption|]. cbn [bindr].
      destruct (proj2 IH) as (cs & als & ->); [assumption|]. cbn. eauto.
Qed.

Lemma aligned_iff info m c a : col_ok info m c a -> a = true <-> per_snapshot m.
Proof. unfold col_ok. destruct a; intros (H & _); split; intros; auto; try discriminate; contradiction. Qed.

Lemma cols_nsnaps info ms cs als : get_columns info ms = Ok (cs, als) ->
  (exists m, In m ms /\ per_snapshot m) ->
  (0 <= snapMax info - snapMin info + 1)%Z /\ nsnaps cs als (Z.to_nat (snapMax info - snapMin info + 1)).
Proof.
  intros H (m & Hm & Hp). destruct (get_columns_ok _ _ _ _ H) as (L1 & L2 & K).
  apply (In_nth _ _ []) in Hm. destruct Hm as (j & Hj & <-).
  pose proof (K j Hj) as Kj. pose proof (proj2 (aligned_iff _ _ _ _ Kj) Hp) as Ea.
  split. { rewrite Ea in Kj. destruct Kj as (_ & Kl & _). lia. }
  split.
  - intros i Hi Hi'. specialize (K i ltac:(lia)). rewrite Hi' in K. destruct K as (_ & Kl & _). lia.
  - intros Q. rewrite Q in Ea by lia. discriminate.
Qed.

Lemma cols_nsnaps1 info ms cs als : get_columns info ms = Ok (cs, als) ->
  (forall m, In m ms -> ~ per_snapshot m) -> nsnaps cs als 1.
Proof.
  intros H Hn. destruct (get_columns_ok _ _ _ _ H) as (L1 & L2 & K). split; [|reflexivity].
  intros j Hj Ha. exfalso. apply (Hn (nth j ms [])); [apply nth_In; lia|]. specialize (K j ltac:(lia)).
  apply (aligned_iff _ _ _ _ K) in Ha. exact Ha.
Qed.

Lemma per_snapshot_dec m : {per_snapshot m} + {~ per_snapshot m}.
Proof.
  unfold per_snapshot. destruct (list_eq_dec ascii_dec m (lit "Snapshot")); [left; now left|].
  destruct (list_eq_dec ascii_dec m (lit "ScaleFactor")); [left; now right|]. right. tauto.
Qed.

Lemma some_per_snapshot ms : (exists m, In m ms /\ per_snapshot m) \/ (forall m, In m ms -> ~ per_snapshot m).
Proof.
  destruct (Exists_dec _ ms per_snapshot_dec) as [H|H].
  - left. apply Exists_exists in H. exact H.
  - right. intros m Hm Hp. apply H. apply Exists_exists. eauto.
Qed.

(** Rows of a covered snapshot. *)
Lemma is_row_values info ms cs als snap row : get_columns info ms = Ok (cs, als) ->
  (snapMin info <= snap)%Z ->
  ((exists m, In m ms /\ per_snapshot m) -> (snap <= snapMax info)%Z) ->
  is_row cs als (Z.to_nat (snap - snapMin info)) row <-> Forall2 (value_ok info snap) ms row.
Proof.
  intros H H1 H2. destruct (get_columns_ok _ _ _ _ H) as (L1 & L2 & K).
  assert (V : forall j v, j < length ms -> value_ok info snap (nth j ms []) v <->
      if nth j als true then nth_error (nth j cs []) (Z.to_nat (snap - snapMin info)) = Some v else In v (nth j cs [])).
  { intros j v Hj. pose proof (K j Hj) as Kj. unfold col_ok in Kj. destruct (nth j als true) eqn:Ea.
    - destruct Kj as (P & _ & Kv). rewrite (Kv snap v H1).
      assert (Hle : (snap <= snapMax info)%Z) by (apply H2; exists (nth j ms []); split; [now apply nth_In|exact P]).
      split; [intros [[_ Q]|(_ & _ & Q)]; [exact Q|lia]|]. intros Q. left. auto.
    - destruct Kj as (_ & _ & Kv). apply Kv. }
  split.
  - intros [R1 R2]. assert (G : forall j, j < length ms -> value_ok info snap (nth j ms []) (nth j row ANil)).
    { intros j Hj. apply V; [exact Hj|]. apply (R2 j); apply nth_error_nth'; lia. }
    rewrite L1 in R1. clear - R1 G. revert row R1 G. induction ms as [|m ms IH]; intros [|v row] R1 G; try discriminate R1; constructor.
    + exact (G 0 ltac:(cbn; lia)).
    + apply IH; [cbn in R1; lia|]. intros j Hj. exact (G (S j) ltac:(cbn; lia)).
  - intros F. assert (Lr : length row = length ms) by (now apply Forall2_length in F).
    split; [lia|]. intros j c a v Q1 Q2 Q3.
    assert (Hj : j < length ms) by (rewrite <- Lr; apply nth_error_Some; congruence).
    assert (Ec : nth j cs [] = c) by (now apply nth_error_nth). assert (Ea : nth j als true = a) by (now apply nth_error_nth).
    assert (G : value_ok info snap (nth j ms []) v).
    { clear - F Q3 Hj. revert j Q3 Hj. induction F as [|m v' ms row Hv F IH]; intros j Q3 Hj; [cbn in Hj; lia|].
      destruct j as [|j]; [injection Q3 as <-; exact Hv|]. cbn [nth]. apply IH; [exact Q3|cbn in Hj; lia]. }
    apply V in G; [|exact Hj]. rewrite Ea, Ec in G. exact G.
Qed.

Section Names.
Variable sprintf : bytes -> list arg -> bytes.

Lemma init_columns_inv info cat : init_columns sprintf info false = Ok cat ->
  exists cs als n, get_columns info (meanings info) = Ok (cs, als) /\ nsnaps cs als n /\
    cat = {| c_snapMin := snapMin info; c_names := map (fun s => map (sprintf (snapshotFormat info)) (combos cs als s)) (seq 0 n) |}.
Proof.
  unfold init_columns. destruct (get_columns info (meanings info)) as [[cs als]| |] eqn:E; try discriminate. cbn [bindr fst snd].
  destruct (interleave cs als) as [fargs|] eqn:Ei; [|discriminate]. intros [= <-].
  destruct (get_columns_ok _ _ _ _ E) as (L1 & L2 & _).
  apply interleave_spec in Ei; [|lia]. destruct Ei as (n & Hn & ->). exists cs, als, n. split; [reflexivity|]. split; [exact Hn|]. now rewrite map_map.
Qed.

Lemma init_columns_legal info : (exists cat, init_columns sprintf info false = Ok cat) <-> Forall (legal_meaning info) (meanings info).
Proof.
  rewrite <- get_columns_legal. split.
  - intros (cat & H). apply init_columns_inv in H. destruct H as (cs & als & n & H & _). eauto.
  - intros (cs & als & H). destruct (get_columns_ok _ _ _ _ H) as (L1 & L2 & _).
    assert (N : exists n, nsnaps cs als n).
    { destruct (some_per_snapshot (meanings info)) as [Q|Q].
      - eexists. exact (proj2 (cols_nsnaps _ _ _ _ H Q)).
      - exists 1. exact (cols_nsnaps1 _ _ _ _ H Q). }
    destruct N as (n & Hn). unfold init_columns. rewrite H. cbn [bindr fst snd].
    rewrite (proj2 (interleave_spec cs als (map (combos cs als) (seq 0 n)) ltac:(lia))) by eauto. eauto.
Qed.

Lemma nsnaps_fun cs als n n' : length als = length cs -> nsnaps cs als n -> nsnaps cs als n' -> n = n'.
Proof.
  intros L [H1 H2] [H1' H2'].
  assert (D : (exists j, j < length cs /\ nth j als true = true) \/ (forall j, j < length cs -> nth j als true = false)).
  { clear - L. generalize (length cs) as k. intros k. clear L. induction k as [|k IH]; [right; intros; lia|].
    destruct IH as [(j & Hj & Q)|IH]; [left; exists j; auto|]. destruct (nth k als true) eqn:E; [left; eauto|].
    right. intros j Hj. destruct (Nat.eq_dec j k) as [->|]; [exact E|]. apply IH. lia. }
  destruct D as [(j & Hj & Q)|D]; [rewrite <- (H1 j Hj Q); now apply H1'|]. rewrite (H2 D), (H2' D). reflexivity.
Qed.

Theorem names_ok info cat snap : init_columns sprintf info false = Ok cat -> 
  (covered info snap -> exists rows,
     (forall row, In row rows <-> Forall2 (value_ok info snap) (meanings info) row) /\
     NoDup rows /\ in_order rows /\ blocks cat = Some (length rows) /\
     forall block, (0 <= block)%Z ->
       particle_catalog cat snap block = option_map (sprintf (snapshotFormat info)) (nth_error rows (Z.to_nat block))) /\
  (~ covered info snap -> forall block, particle_catalog cat snap block = None).
Proof.
  intros H. apply init_columns_inv in H. destruct H as (cs & als & n & H & Hn & ->).
  destruct (get_columns_ok _ _ _ _ H) as (L1 & L2 & K).
  assert (Hcov : covered info snap <-> (snapMin info <= snap)%Z /\ (snap - snapMin info < Z.of_nat n)%Z).
  { unfold covered. destruct (some_per_snapshot (meanings info)) as [Q|Q].
    - destruct (cols_nsnaps _ _ _ _ H Q) as [Q1 Q2]. pose proof (nsnaps_fun _ _ _ _ (eq_trans L2 (eq_sym L1)) Hn Q2) as ->.
      split; [intros [[_ W]|[W _]]; [lia|]|intros W; left; split; [exact Q|lia]].
      destruct Q as (m & Q & Q'). now apply W in Q'.
    - pose proof (cols_nsnaps1 _ _ _ _ H Q) as Q2. pose proof (nsnaps_fun _ _ _ _ (eq_trans L2 (eq_sym L1)) Hn Q2) as ->.
      split; [intros [[(m & W & W') _]|[_ ->]]; [now apply Q in W'|lia]|]. intros W. right. split; [exact Q|lia]. }
  split.
  - intros Hc. pose proof (proj1 Hcov Hc) as [C1 C2].
    set (s := Z.to_nat (snap - snapMin info)). exists (combos cs als s).
    assert (Hal : forall j, j < length cs -> nth j als true = true -> s < length (nth j cs [])).
    { intros j Hj Ha. rewrite (proj1 Hn j Hj Ha). subst s. lia. }
    assert (Hord : in_order (combos cs als s)).
    { apply combos_order; [lia|]. intros j Hj Ha. specialize (K j ltac:(lia)). rewrite Ha in K. apply K. }
    split. { intros row. rewrite combos_In by (try exact Hal; lia). apply is_row_values; [exact H|exact C1|].
      intros Q. destruct Hc as [[_ W]|[W _]]; [lia|]. destruct Q as (m & Q & Q'). now apply W in Q'. }
    split; [now apply in_order_NoDup|]. split; [exact Hord|]. split.
    + unfold blocks. cbn [c_names]. rewrite nth_error_map. rewrite (nth_error_nth' _ 0) by (rewrite seq_length; lia).
      rewrite seq_nth by lia. cbn [option_map]. rewrite map_length, !combos_length by lia. reflexivity.
    + intros block Hb. unfold particle_catalog. cbn [c_snapMin c_names]. destruct (Z.ltb_spec (snap - snapMin info) 0); [lia|].
      rewrite nth_error_map. rewrite (nth_error_nth' _ 0) by (rewrite seq_length; subst s; lia). rewrite seq_nth by (subst s; lia).
      cbn [option_map]. destruct (Z.ltb_spec block 0); [lia|]. fold s. now rewrite Nat.add_0_l, nth_error_map.
  - intros Hc block. unfold particle_catalog. cbn [c_snapMin c_names]. destruct (Z.ltb_spec (snap - snapMin info) 0); [reflexivity|].
    rewrite nth_error_map, (proj2 (nth_error_None _ _)); [reflexivity|]. rewrite seq_length. assert (~ (snap - snapMin info < Z.of_nat n)%Z) by (intros Q; apply Hc, Hcov; lia). lia.
Qed.
End Names.
