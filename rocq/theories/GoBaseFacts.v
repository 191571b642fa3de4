(** * Facts about the Go vocabulary of GoBase. *)
From Verif Require Import GoBase.
From Coq Require Import ZifyBool ZifyNat.
Ltac Zify.zify_post_hook ::= Z.div_mod_to_equations.
Local Open Scope list_scope.

Lemma beq_true x y : beq x y = true <-> x = y.
Proof. unfold beq; destruct (list_eq_dec ascii_dec x y); split; congruence. Qed.

Lemma beq_refl x : beq x x = true.
Proof. apply beq_true; reflexivity. Qed.

Lemma beq_false x y : beq x y = false <-> x <> y.
Proof. unfold beq; destruct (list_eq_dec ascii_dec x y); split; congruence. Qed.

(** ** index_byte *)
Lemma index_byte_none c s : index_byte c s = None <-> ~ In c s.
Proof.
  induction s as [|a s IH]; simpl; [tauto|].
  destruct (Ascii.eqb_spec a c) as [->|Hne].
  - split; [discriminate|tauto].
  - destruct (index_byte c s) as [i|]; simpl.
    + split; [discriminate|]. intros H. exfalso. apply H. right.
      destruct (in_dec ascii_dec c s); [assumption|].
      assert (Some i = None) by (apply IH; assumption). discriminate.
    + split; [|reflexivity]. intros _ [H|H]; [congruence|]. apply IH; auto.
Qed.

Lemma index_byte_some c s i :
  index_byte c s = Some i ->
  s = firstn i s ++ c :: skipn (S i) s /\ ~ In c (firstn i s) /\ i < List.length s.
Proof.
  revert i; induction s as [|a s IH]; intros i; simpl; [discriminate|].
  destruct (Ascii.eqb_spec a c) as [->|Hne].
  - intros [= <-]. simpl. repeat split; [tauto|lia].
  - destruct (index_byte c s) as [j|] eqn:E; simpl; [|discriminate].
    intros [= <-]. destruct (IH j eq_refl) as (H1 & H2 & H3).
    simpl. repeat split.
    + f_equal. exact H1.
    + intros [H|H]; [congruence|auto].
    + lia.
Qed.

Lemma index_byte_app c x y :
  ~ In c x -> index_byte c (x ++ c :: y) = Some (List.length x).
Proof.
  induction x as [|a x IH]; simpl; intros H.
  - rewrite Ascii.eqb_refl; reflexivity.
  - destruct (Ascii.eqb_spec a c) as [->|Hne]; [tauto|].
    rewrite IH by tauto. reflexivity.
Qed.

(** ** split_byte *)
Lemma split_byte_nonnil c s : split_byte c s <> [].
Proof.
  destruct s as [|a s]; simpl; [discriminate|].
  destruct (Ascii.eqb a c); [discriminate|].
  destruct (split_byte c s); discriminate.
Qed.

Lemma split_byte_no c s : Forall (fun w => ~ In c w) (split_byte c s).
Proof.
  induction s as [|a s IH]; simpl; [repeat constructor; auto|].
  destruct (Ascii.eqb_spec a c) as [->|Hne]; [constructor; auto|].
  destruct (split_byte c s) as [|w ws] eqn:E; [exfalso; eapply split_byte_nonnil; eauto|].
  inversion IH; subst. constructor; [|assumption]. simpl. intros [H|H]; [congruence|auto].
Qed.

Lemma join_cons c w ws : ws <> [] -> join c (w :: ws) = w ++ c ++ join c ws.
Proof. destruct ws; [congruence|reflexivity]. Qed.

Lemma join_split c s : join [c] (split_byte c s) = s.
Proof.
  induction s as [|a s IH]; [reflexivity|].
  cbn [split_byte].
  destruct (Ascii.eqb_spec a c) as [->|Hne].
  - rewrite join_cons by apply split_byte_nonnil. rewrite IH. reflexivity.
  - destruct (split_byte c s) as [|w ws] eqn:E; [exfalso; eapply split_byte_nonnil; eauto|].
    destruct ws as [|w' ws].
    + simpl in *. congruence.
    + rewrite join_cons in * by discriminate. rewrite <- IH. reflexivity.
Qed.

Lemma split_byte_nosep c w : ~ In c w -> split_byte c w = [w].
Proof.
  induction w as [|a w IH]; simpl; intros H; [reflexivity|].
  destruct (Ascii.eqb_spec a c) as [->|Hne]; [tauto|].
  rewrite IH by tauto. reflexivity.
Qed.

Lemma split_byte_app c w s :
  ~ In c w -> split_byte c (w ++ c :: s) = w :: split_byte c s.
Proof.
  induction w as [|a w IH]; simpl; intros H.
  - rewrite Ascii.eqb_refl. reflexivity.
  - destruct (Ascii.eqb_spec a c) as [->|Hne]; [tauto|].
    rewrite IH by tauto. reflexivity.
Qed.

Lemma split_join c ws :
  ws <> [] -> Forall (fun w => ~ In c w) ws -> split_byte c (join [c] ws) = ws.
Proof.
  induction ws as [|w ws IH]; [congruence|].
  intros _ H. inversion H as [|? ? Hw Hws]; subst.
  destruct ws as [|w' ws].
  - simpl. apply split_byte_nosep; assumption.
  - rewrite join_cons by discriminate. cbn [app].
    rewrite split_byte_app by assumption. f_equal. apply IH; [discriminate|assumption].
Qed.

(** A more general decomposition: splitting a concatenation at a separator. *)
Lemma split_byte_app_gen c x y :
  split_byte c (x ++ c :: y) = split_byte c x ++ split_byte c y.
Proof.
  induction x as [|a x IH]; simpl.
  - rewrite Ascii.eqb_refl. reflexivity.
  - destruct (Ascii.eqb_spec a c) as [->|Hne].
    + rewrite IH. reflexivity.
    + rewrite IH. destruct (split_byte c x) as [|w ws] eqn:E.
      * exfalso; eapply split_byte_nonnil; eauto.
      * reflexivity.
Qed.

(** ** trim *)
Lemma trim_left_app_all c n s : trim_left c (repeat c n ++ s) = trim_left c s.
Proof. induction n as [|n IH]; simpl; [reflexivity|]. rewrite Ascii.eqb_refl. exact IH. Qed.

Lemma trim_left_repeat c n : trim_left c (repeat c n) = [].
Proof. rewrite <- (app_nil_r (repeat c n)), trim_left_app_all. reflexivity. Qed.

Lemma trim_left_spec c s :
  exists n, s = repeat c n ++ trim_left c s /\ hd_error (trim_left c s) <> Some c.
Proof.
  induction s as [|a s (n & H1 & H2)]; simpl.
  - exists 0; split; [reflexivity|discriminate].
  - destruct (Ascii.eqb_spec a c) as [->|Hne].
    + exists (S n). simpl. split; [f_equal; exact H1|exact H2].
    + exists 0. simpl. split; [reflexivity|congruence].
Qed.

Lemma trim_left_id c s : hd_error s <> Some c -> trim_left c s = s.
Proof.
  destruct s as [|a s]; simpl; [reflexivity|].
  destruct (Ascii.eqb_spec a c) as [->|Hne]; [congruence|reflexivity].
Qed.

Lemma rev_repeat {A} (c : A) n : rev (repeat c n) = repeat c n.
Proof.
  induction n as [|n IH]; simpl; [reflexivity|].
  rewrite IH. clear IH. induction n as [|n IH]; simpl; [reflexivity|]. f_equal. exact IH.
Qed.

Lemma trim_right_spec c s :
  exists n, s = trim_right c s ++ repeat c n /\ hd_error (rev (trim_right c s)) <> Some c.
Proof.
  unfold trim_right. destruct (trim_left_spec c (rev s)) as (n & H1 & H2).
  exists n. rewrite rev_involutive. split; [|exact H2].
  rewrite <- (rev_involutive s), H1 at 1. rewrite rev_app_distr, rev_repeat. reflexivity.
Qed.

Lemma trim_right_app c s n : trim_right c (s ++ repeat c n) = trim_right c s.
Proof.
  unfold trim_right. rewrite rev_app_distr, rev_repeat, trim_left_app_all. reflexivity.
Qed.

Lemma trim_left_app_ne c s t :
  trim_left c s <> [] -> trim_left c (s ++ t) = trim_left c s ++ t.
Proof.
  induction s as [|a s IH]; simpl; [congruence|].
  destruct (Ascii.eqb a c); [exact IH|reflexivity].
Qed.

Lemma trim_left_nil c s : trim_left c s = [] <-> s = repeat c (List.length s).
Proof.
  split.
  - intros H. destruct (trim_left_spec c s) as (n & H1 & _). rewrite H, app_nil_r in H1.
    rewrite H1 at 1. f_equal. rewrite H1, repeat_length. reflexivity.
  - intros H. rewrite H. apply trim_left_repeat.
Qed.

Lemma trim_left_repeat_app_nil c s n :
  trim_left c s = [] -> trim_left c (s ++ repeat c n) = [].
Proof.
  intros H. apply trim_left_nil in H. rewrite H. rewrite trim_left_app_all. apply trim_left_repeat.
Qed.

Lemma trim_pad c s n m : trim c (repeat c n ++ s ++ repeat c m) = trim c s.
Proof.
  unfold trim. rewrite trim_left_app_all.
  destruct (trim_left c s) as [|a l] eqn:E.
  - rewrite trim_left_repeat_app_nil by assumption. reflexivity.
  - rewrite trim_left_app_ne by congruence. rewrite trim_right_app, E. reflexivity.
Qed.

(** Trim removes only leading/trailing c's, and the result starts and ends with something else. *)
Lemma trim_spec c s :
  exists n m, s = repeat c n ++ trim c s ++ repeat c m
              /\ hd_error (trim c s) <> Some c /\ hd_error (rev (trim c s)) <> Some c.
Proof.
  unfold trim. destruct (trim_left_spec c s) as (n & H1 & H2).
  destruct (trim_right_spec c (trim_left c s)) as (m & H3 & H4).
  exists n, m. rewrite <- H3. repeat split; [exact H1| |exact H4].
  destruct (trim_right c (trim_left c s)) as [|a l] eqn:E; [discriminate|].
  rewrite H3 in H2. exact H2.
Qed.

Lemma trim_id c s :
  hd_error s <> Some c -> hd_error (rev s) <> Some c -> trim c s = s.
Proof.
  intros H1 H2. unfold trim, trim_right. rewrite (trim_left_id c s H1).
  rewrite (trim_left_id c (rev s) H2). apply rev_involutive.
Qed.

Lemma trim_idem c s : trim c (trim c s) = trim c s.
Proof.
  destruct (trim_spec c s) as (n & m & _ & H1 & H2). apply trim_id; assumption.
Qed.

Lemma trim_nil c s : trim c s = [] <-> s = repeat c (List.length s).
Proof.
  split.
  - intros H. destruct (trim_spec c s) as (n & m & H1 & _). rewrite H in H1. simpl in H1.
    rewrite <- repeat_app in H1. rewrite H1 at 1. f_equal. rewrite H1, repeat_length. reflexivity.
  - intros H. rewrite H. rewrite <- (app_nil_r (repeat c _)).
    change (@nil ascii) with ([] ++ repeat c 0) at 1. rewrite trim_pad. reflexivity.
Qed.

Lemma trim_In c s a : In a (trim c s) -> In a s.
Proof.
  intros H. destruct (trim_spec c s) as (n & m & H1 & _). rewrite H1.
  apply in_or_app. right. apply in_or_app. left. exact H.
Qed.

(** ** upd *)
Lemma upd_some {A} (l : list A) i v :
  i < List.length l -> exists l', upd l i v = Some l'.
Proof.
  revert i; induction l as [|a l IH]; intros [|i] H; simpl in *; try lia.
  - eexists; reflexivity.
  - destruct (IH i) as (l' & E); [lia|]. rewrite E. eexists; reflexivity.
Qed.

Lemma upd_none {A} (l : list A) i v : List.length l <= i -> upd l i v = None.
Proof.
  revert i; induction l as [|a l IH]; intros [|i] H; simpl in *; try lia; try reflexivity.
  rewrite IH by lia. reflexivity.
Qed.

Lemma upd_inv {A} (l l' : list A) i v :
  upd l i v = Some l' ->
  i < List.length l /\ l' = firstn i l ++ v :: skipn (S i) l.
Proof.
  revert i l'; induction l as [|a l IH]; intros [|i] l'; simpl; try discriminate.
  - intros [= <-]. split; [lia|reflexivity].
  - destruct (upd l i v) as [l2|] eqn:E; simpl; [|discriminate].
    intros [= <-]. destruct (IH _ _ E) as (H1 & H2). split; [lia|]. rewrite H2. reflexivity.
Qed.

Lemma upd_length {A} (l l' : list A) i v : upd l i v = Some l' -> List.length l' = List.length l.
Proof.
  revert i l'; induction l as [|a l IH]; intros [|i] l'; simpl; try discriminate.
  - intros [= <-]. reflexivity.
  - destruct (upd l i v) as [l2|] eqn:E; simpl; [|discriminate].
    intros [= <-]. simpl. f_equal. eapply IH; eauto.
Qed.

Lemma upd_nth_error {A} (l l' : list A) i v k :
  upd l i v = Some l' ->
  nth_error l' k = if Nat.eqb k i then Some v else nth_error l k.
Proof.
  revert i l' k; induction l as [|a l IH]; intros [|i] l' k; simpl; try discriminate.
  - intros [= <-]. destruct k; reflexivity.
  - destruct (upd l i v) as [l2|] eqn:E; simpl; [|discriminate].
    intros [= <-]. destruct k as [|k]; simpl; [reflexivity|]. eapply IH; eauto.
Qed.

(** ** Decimal numbers *)
Definition is_digit (a : ascii) : Prop := 48 <= nat_of_ascii a <= 57.

(** Independent meaning of a decimal numeral. *)
Inductive decimal : bytes -> Z -> Prop :=
| dec_one a : is_digit a -> decimal [a] (Z.of_nat (nat_of_ascii a) - 48)
| dec_snoc s v a : decimal s v -> is_digit a ->
                   decimal (s ++ [a]) (10 * v + (Z.of_nat (nat_of_ascii a) - 48)).

(** Independent meaning of an (optionally signed) decimal numeral that fits in 64 bits. *)
Inductive go_int : bytes -> Z -> Prop :=
| gi_plain s v : decimal s v -> (int64_min <= v <= int64_max)%Z -> go_int s v
| gi_plus s v : decimal s v -> (int64_min <= v <= int64_max)%Z -> go_int ("+"%char :: s) v
| gi_minus s v : decimal s v -> (int64_min <= - v <= int64_max)%Z -> go_int ("-"%char :: s) (- v).

Lemma digit_val_spec a d :
  digit_val a = Some d <-> is_digit a /\ d = (Z.of_nat (nat_of_ascii a) - 48)%Z.
Proof.
  unfold digit_val, is_digit. remember (nat_of_ascii a) as n.
  destruct ((48 <=? n) && (n <=? 57)) eqn:E.
  - split; [intros [= <-]; lia|]. intros [H ->]. f_equal. lia.
  - split; [discriminate|]. intros [H _]. lia.
Qed.

Lemma digits_val_snoc s a acc :
  digits_val acc (s ++ [a]) =
  match digits_val acc s, digit_val a with
  | Some v, Some d => Some (v * 10 + d)%Z
  | _, _ => None
  end.
Proof.
  revert acc; induction s as [|b s IH]; intros acc; simpl.
  - destruct (digit_val a); reflexivity.
  - destruct (digit_val b); [apply IH|reflexivity].
Qed.

Lemma decimal_digits s v : decimal s v <-> s <> [] /\ digits_val 0 s = Some v.
Proof.
  split.
  - induction 1 as [a Ha|s v a Hs [IH1 IH2] Ha].
    + split; [discriminate|]. cbn [digits_val].
      assert (E : digit_val a = Some (Z.of_nat (nat_of_ascii a) - 48)%Z) by (apply digit_val_spec; auto).
      rewrite E. reflexivity.
    + split; [destruct s; discriminate|]. rewrite digits_val_snoc, IH2.
      assert (E : digit_val a = Some (Z.of_nat (nat_of_ascii a) - 48)%Z) by (apply digit_val_spec; auto).
      rewrite E. f_equal. lia.
  - revert v. induction s as [|a s IH] using rev_ind; intros v [H1 H2]; [congruence|].
    rewrite digits_val_snoc in H2.
    destruct (digits_val 0 s) as [v'|] eqn:E1; [|discriminate].
    destruct (digit_val a) as [d|] eqn:E2; [|discriminate].
    apply digit_val_spec in E2. destruct E2 as [Ha Hd].
    injection H2 as <-. destruct s as [|b s].
    + simpl in *. injection E1 as <-. replace (0 * 10 + d)%Z with (Z.of_nat (nat_of_ascii a) - 48)%Z by lia.
      constructor; assumption.
    + replace (v' * 10 + d)%Z with (10 * v' + (Z.of_nat (nat_of_ascii a) - 48))%Z by lia.
      constructor; [|assumption]. apply IH. split; [discriminate|reflexivity].
Qed.

Lemma decimal_nonneg s v : decimal s v -> (0 <= v)%Z.
Proof. induction 1; unfold is_digit in *; lia. Qed.

Lemma decimal_head s v : decimal s v -> exists a s', s = a :: s' /\ is_digit a.
Proof.
  induction 1 as [a Ha|s v a Hs (b & s' & -> & Hb) Ha]; [eauto|]. exists b, (s' ++ [a]). auto.
Qed.

Lemma check_range_spec z v :
  check_range z = Some v <-> v = z /\ (int64_min <= z <= int64_max)%Z.
Proof.
  unfold check_range, in_int64.
  destruct ((int64_min <=? z)%Z && (z <=? int64_max)%Z) eqn:E.
  - split; [intros [= <-]; lia|]. intros [-> _]; reflexivity.
  - split; [discriminate|]. intros [_ H]. lia.
Qed.

Lemma sign_not_digit a : a = "-"%char \/ a = "+"%char -> ~ is_digit a.
Proof. intros [->| ->]; unfold is_digit; cbn; lia. Qed.

Theorem atoi_spec s v : atoi s = Some v <-> go_int s v.
Proof.
  unfold atoi. destruct s as [|a s].
  { split; [discriminate|]. inversion 1; subst.
    match goal with H : decimal [] _ |- _ => apply decimal_digits in H; tauto end. }
  destruct (Ascii.eqb_spec a "-"%char) as [->|Hm].
  { split.
    - destruct s as [|b s]; [discriminate|].
      destruct (digits_val 0 (b :: s)) as [w|] eqn:E; [|discriminate].
      intros H. apply check_range_spec in H. destruct H as [-> H].
      apply gi_minus; [|assumption]. apply decimal_digits. split; [discriminate|assumption].
    - intros H. inversion H as [s0 v0 Hd Hr|s0 v0 Hd Hr|s0 v0 Hd Hr]; subst.
      + apply decimal_head in Hd. destruct Hd as (b & s' & E & Hb).
        injection E as <- _. exfalso. revert Hb. apply sign_not_digit; auto.
      + apply decimal_digits in Hd. destruct Hd as [Hn Hd]. rewrite Hd.
        destruct s; [congruence|]. apply check_range_spec. auto. }
  destruct (Ascii.eqb_spec a "+"%char) as [->|Hp].
  { split.
    - destruct s as [|b s]; [discriminate|].
      destruct (digits_val 0 (b :: s)) as [w|] eqn:E; [|discriminate].
      intros H. apply check_range_spec in H. destruct H as [-> H].
      apply gi_plus; [|assumption]. apply decimal_digits. split; [discriminate|assumption].
    - intros H. inversion H as [s0 v0 Hd Hr|s0 v0 Hd Hr|s0 v0 Hd Hr]; subst.
      + apply decimal_head in Hd. destruct Hd as (b & s' & E & Hb).
        injection E as <- _. exfalso. revert Hb. apply sign_not_digit; auto.
      + apply decimal_digits in Hd. destruct Hd as [Hn Hd]. rewrite Hd.
        destruct s; [congruence|]. apply check_range_spec. auto. }
  split.
  - destruct (digits_val 0 (a :: s)) as [w|] eqn:E; [|discriminate].
    intros H. apply check_range_spec in H. destruct H as [-> H].
    apply gi_plain; [|assumption]. apply decimal_digits. split; [discriminate|assumption].
  - intros H. inversion H as [s0 v0 Hd Hr|s0 v0 Hd Hr|s0 v0 Hd Hr]; subst; try congruence.
    apply decimal_digits in Hd. destruct Hd as [_ Hd]. rewrite Hd. apply check_range_spec. auto.
Qed.

(** ** itoa *)
Lemma digit_char_nat d : (0 <= d <= 9)%Z -> nat_of_ascii (digit_char d) = 48 + Z.to_nat d.
Proof. intros H. unfold digit_char. apply nat_ascii_embedding. lia. Qed.

Lemma digit_char_digit d : (0 <= d <= 9)%Z -> is_digit (digit_char d).
Proof. intros H. unfold is_digit. rewrite digit_char_nat by assumption. lia. Qed.

Lemma digit_val_char d : (0 <= d <= 9)%Z -> digit_val (digit_char d) = Some d.
Proof.
  intros H. apply digit_val_spec. split; [apply digit_char_digit; assumption|].
  rewrite digit_char_nat by assumption. lia.
Qed.

Lemma digits_val_app x y acc :
  digits_val acc (x ++ y) = match digits_val acc x with Some v => digits_val v y | None => None end.
Proof.
  revert acc; induction x as [|a x IH]; intros acc; simpl; [reflexivity|].
  destruct (digit_val a); [apply IH|reflexivity].
Qed.

(** itoa_pos yields the digits of z in front of acc. *)
Lemma itoa_pos_spec fuel z acc :
  (0 <= z)%Z -> (z < 10 ^ Z.of_nat fuel)%Z -> 0 < fuel ->
  exists ds, itoa_pos fuel z acc = ds ++ acc /\ ds <> [] /\ Forall is_digit ds
             /\ digits_val 0 ds = Some z.
Proof.
  revert z acc; induction fuel as [|f IH]; intros z acc Hz Hf Hp; [lia|].
  cbn [itoa_pos].
  destruct (Z.ltb_spec z 10) as [Hlt|Hge].
  - exists [digit_char (z mod 10)]. split; [reflexivity|]. split; [discriminate|]. split.
    + constructor; [apply digit_char_digit; lia|constructor].
    + cbn [digits_val]. rewrite digit_val_char by lia. f_equal. lia.
  - destruct f as [|f].
    { simpl in Hf. lia. }
    destruct (IH (z / 10)%Z (digit_char (z mod 10) :: acc)) as (ds & E1 & E2 & E3 & E4).
    + lia.
    + apply Z.div_lt_upper_bound; [lia|].
      replace (Z.of_nat (S (S f))) with (Z.succ (Z.of_nat (S f))) in Hf by lia.
      rewrite Z.pow_succ_r in Hf by lia. exact Hf.
    + lia.
    + exists (ds ++ [digit_char (z mod 10)]). rewrite E1. split; [|split; [|split]].
      * rewrite <- app_assoc. reflexivity.
      * destruct ds; discriminate.
      * apply Forall_app. split; [assumption|]. constructor; [apply digit_char_digit; lia|constructor].
      * rewrite digits_val_app, E4. cbn [digits_val]. rewrite digit_val_char by lia. f_equal. lia.
Qed.

Lemma itoa_nonneg_spec z :
  (0 <= z)%Z -> itoa_nonneg z <> [] /\ Forall is_digit (itoa_nonneg z) /\ digits_val 0 (itoa_nonneg z) = Some z.
Proof.
  intros Hz. unfold itoa_nonneg.
  destruct (itoa_pos_spec (S (Z.to_nat (Z.log2 z))) z []) as (ds & E1 & E2 & E3 & E4); try lia.
  - rewrite Nat2Z.inj_succ, Z2Nat.id by apply Z.log2_nonneg.
    destruct (Z.eq_dec z 0) as [->|Hnz]; [reflexivity|].
    apply Z.lt_le_trans with (2 ^ Z.succ (Z.log2 z))%Z; [apply Z.log2_spec; lia|].
    apply Z.pow_le_mono_l. lia.
  - rewrite E1, app_nil_r. auto.
Qed.

Lemma digit_not_sign a : is_digit a -> Ascii.eqb a "-"%char = false /\ Ascii.eqb a "+"%char = false.
Proof.
  intros H. split.
  - destruct (Ascii.eqb_spec a "-"%char) as [->|]; [unfold is_digit in H; cbn in H; lia|reflexivity].
  - destruct (Ascii.eqb_spec a "+"%char) as [->|]; [unfold is_digit in H; cbn in H; lia|reflexivity].
Qed.

Theorem atoi_itoa z : (int64_min <= z <= int64_max)%Z -> atoi (itoa z) = Some z.
Proof.
  intros Hz. apply atoi_spec. unfold itoa.
  destruct (Z.ltb_spec z 0) as [Hlt|Hge].
  - destruct (itoa_nonneg_spec (- z)) as (H1 & H2 & H3); [lia|].
    replace z with (- (- z))%Z at 2 by lia. apply gi_minus; [|lia].
    apply decimal_digits; auto.
  - destruct (itoa_nonneg_spec z) as (H1 & H2 & H3); [lia|].
    apply gi_plain; [|lia]. apply decimal_digits; auto.
Qed.

Lemma itoa_chars z : itoa z <> [] /\ Forall (fun a => is_digit a \/ a = "-"%char) (itoa z).
Proof.
  unfold itoa. destruct (Z.ltb_spec z 0) as [Hlt|Hge].
  - destruct (itoa_nonneg_spec (- z)) as (H1 & H2 & H3); [lia|].
    split; [discriminate|]. constructor; [auto|].
    eapply Forall_impl; [|exact H2]. auto.
  - destruct (itoa_nonneg_spec z) as (H1 & H2 & H3); [lia|].
    split; [assumption|]. eapply Forall_impl; [|exact H2]. auto.
Qed.
