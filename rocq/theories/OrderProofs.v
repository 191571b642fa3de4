(** * Proofs about the block readers. *)
From Verif Require Export OrderModel BytesFacts.
Local Open Scope nat_scope.

Lemma swap_spec buf i j : i < length buf -> j < length buf ->
  exists buf', swap buf i j = Some buf' /\ length buf' = length buf /\
    forall p, nth p buf' 0%Z = if p =? j then nth i buf 0%Z else if p =? i then nth j buf 0%Z else nth p buf 0%Z.
Proof.
  intros Hi Hj. unfold swap. rewrite (rd_nth buf i 0%Z), (rd_nth buf j 0%Z) by assumption.
  destruct (wr_some buf i (nth j buf 0%Z) 0%Z Hi) as (b1 & -> & Hl1 & Hn1).
  destruct (wr_some b1 j (nth i buf 0%Z) 0%Z) as (b2 & -> & Hl2 & Hn2); [lia|].
  exists b2. split; [reflexivity|]. split; [lia|]. intros p. rewrite Hn2.
  destruct (p =? j); [reflexivity|]. apply Hn1.
Qed.

(** Swapping the bytes of one word, for any formula of the two indices. *)
Lemma reverse_word (f g : nat -> nat) a n buf : a + n <= length buf ->
  (forall i, i < n / 2 -> f i = a + i /\ g i = a + (n - 1 - i)) ->
  exists buf', loop (n / 2) (fun i b => swap b (f i) (g i)) buf = Some buf' /\
    length buf' = length buf /\
    forall p, nth p buf' 0%Z = if (a <=? p) && (p <? a + n) then nth (2 * a + n - 1 - p) buf 0%Z else nth p buf 0%Z.
Proof.
  intros Ha Hfg.
  pose proof (Nat.div_mod n 2 ltac:(lia)) as Hdm. pose proof (Nat.mod_upper_bound n 2 ltac:(lia)) as Hm.
  destruct (loop_inv (fun k b => length b = length buf /\ forall p, nth p b 0%Z =
       if ((a <=? p) && (p <? a + k)) || ((a + n - k <=? p) && (p <? a + n))
       then nth (2 * a + n - 1 - p) buf 0%Z else nth p buf 0%Z) (n / 2)
       (fun i b => swap b (f i) (g i)) buf) as (b' & Hb & Hl & Hn).
  - split; [reflexivity|]. intros p.
    destruct (Nat.leb_spec a p), (Nat.ltb_spec p (a + 0)), (Nat.leb_spec (a + n - 0) p), (Nat.ltb_spec p (a + n));
      cbn [andb orb]; try reflexivity; lia.
  - intros i b Hi [Hl Hn]. destruct (Hfg i Hi) as [-> ->].
    destruct (swap_spec b (a + i) (a + (n - 1 - i))) as (b1 & Hs & Hl1 & Hn1); [lia..|].
    exists b1. split; [exact Hs|]. split; [lia|]. intros p. rewrite Hn1, !Hn.
    destruct (Nat.eqb_spec p (a + (n - 1 - i))); [subst p|destruct (Nat.eqb_spec p (a + i)); [subst p|]].
    + replace ((a <=? a + i) && (a + i <? a + i) || (a + n - i <=? a + i) && (a + i <? a + n)) with false.
      2:{ symmetry. apply orb_false_iff. split; apply andb_false_iff; [right|left]; [apply Nat.ltb_ge|apply Nat.leb_gt]; lia. }
      replace ((a <=? a + (n - 1 - i)) && (a + (n - 1 - i) <? a + S i) || (a + n - S i <=? a + (n - 1 - i)) && (a + (n - 1 - i) <? a + n)) with true.
      2:{ symmetry. apply orb_true_iff. right. apply andb_true_iff; split; [apply Nat.leb_le|apply Nat.ltb_lt]; lia. }
      f_equal. lia.
    + replace ((a <=? a + (n - 1 - i)) && (a + (n - 1 - i) <? a + i) || (a + n - i <=? a + (n - 1 - i)) && (a + (n - 1 - i) <? a + n)) with false.
      2:{ symmetry. apply orb_false_iff. split; apply andb_false_iff; [right|left]; [apply Nat.ltb_ge|apply Nat.leb_gt]; lia. }
      replace ((a <=? a + i) && (a + i <? a + S i) || (a + n - S i <=? a + i) && (a + i <? a + n)) with true.
      2:{ symmetry. apply orb_true_iff. left. apply andb_true_iff; split; [apply Nat.leb_le|apply Nat.ltb_lt]; lia. }
      f_equal. lia.
    + replace ((a <=? p) && (p <? a + S i) || (a + n - S i <=? p) && (p <? a + n))
        with ((a <=? p) && (p <? a + i) || (a + n - i <=? p) && (p <? a + n)); [reflexivity|].
      destruct (Nat.leb_spec a p), (Nat.ltb_spec p (a + i)), (Nat.leb_spec (a + n - i) p), (Nat.ltb_spec p (a + n)),
        (Nat.ltb_spec p (a + S i)), (Nat.leb_spec (a + n - S i) p); cbn [andb orb]; try reflexivity; lia.
  - exists b'. split; [exact Hb|]. split; [exact Hl|]. intros p. rewrite Hn.
    destruct (Nat.leb_spec a p), (Nat.ltb_spec p (a + n)), (Nat.ltb_spec p (a + n / 2)), (Nat.leb_spec (a + n - n / 2) p);
      cbn [andb orb]; try reflexivity; try lia.
    f_equal. lia.
Qed.

Lemma reverse_word_app (f g : nat -> nat) pre w post :
  (forall i, i < length w / 2 -> f i = length pre + i /\ g i = length pre + (length w - 1 - i)) ->
  loop (length w / 2) (fun i b => swap b (f i) (g i)) (pre ++ w ++ post) = Some (pre ++ rev w ++ post).
Proof.
  intros Hfg. destruct (reverse_word f g (length pre) (length w) (pre ++ w ++ post)) as (b & Hb & Hl & Hn);
    [rewrite !app_length; lia|exact Hfg|].
  rewrite Hb. f_equal. apply nth_ext with 0%Z 0%Z; [rewrite Hl, !app_length, rev_length; lia|].
  intros p _. rewrite Hn. set (a := length pre) in *.
  destruct (Nat.leb_spec a p) as [Hp|Hp]; cbn [andb].
  - destruct (Nat.ltb_spec p (a + length w)) as [Hq|Hq].
    + rewrite (app_nth2 pre (w ++ post)) by (fold a; lia). rewrite (app_nth2 pre (rev w ++ post)) by (fold a; lia).
      fold a. rewrite (app_nth1 w) by lia. rewrite (app_nth1 (rev w)) by (rewrite rev_length; lia).
      rewrite rev_nth by lia. f_equal. lia.
    + rewrite (app_nth2 pre (w ++ post)) by (fold a; lia). rewrite (app_nth2 pre (rev w ++ post)) by (fold a; lia).
      fold a. rewrite (app_nth2 w) by lia. rewrite (app_nth2 (rev w)) by (rewrite rev_length; lia).
      rewrite rev_length. reflexivity.
  - rewrite (app_nth1 pre (w ++ post)) by (fold a; lia). rewrite (app_nth1 pre (rev w ++ post)) by (fold a; lia). reflexivity.
Qed.

(** A whole buffer of words. *)
Lemma reverse_words (f g : nat -> nat -> nat) w ws post :
  Forall (fun x : list Z => length x = w) ws ->
  (forall k i, k < length ws -> i < w / 2 -> f k i = k * w + i /\ g k i = k * w + (w - 1 - i)) ->
  loop (length ws) (fun k b => loop (w / 2) (fun i b => swap b (f k i) (g k i)) b) (concat ws ++ post)
  = Some (concat (map (@rev Z) ws) ++ post).
Proof.
  intros Hw Hfg.
  destruct (loop_inv (fun k b => b = concat (map (@rev Z) (firstn k ws)) ++ concat (skipn k ws) ++ post) (length ws)
    (fun k b => loop (w / 2) (fun i b => swap b (f k i) (g k i)) b) (concat ws ++ post)) as (b & Hb & ->).
  - reflexivity.
  - intros k b Hk ->.
    assert (exists x rest, skipn k ws = x :: rest /\ firstn (S k) ws = firstn k ws ++ [x] /\ rest = skipn (S k) ws) as (x & rest & Hs & Hf & Hr).
    { clear -Hk. revert k Hk; induction ws as [|a ws IH]; intros k Hk; cbn [length] in Hk; [lia|].
      destruct k as [|k]; [exists a, ws; split; [|split]; reflexivity|].
      destruct (IH k ltac:(lia)) as (x & rest & H1 & H2 & H3). exists x, rest. cbn [skipn]. split; [exact H1|].
      split; [|exact H3]. change (firstn (S (S k)) (a :: ws)) with (a :: firstn (S k) ws). rewrite H2. reflexivity. }
    assert (length x = w) as Hx.
    { apply (proj1 (Forall_forall _ _) Hw). rewrite <- (firstn_skipn k ws), Hs. apply in_or_app. right. now left. }
    assert (length (concat (map (@rev Z) (firstn k ws))) = k * w) as Hl.
    { clear -Hw Hk. assert (length (firstn k ws) = k) as Hk' by (apply firstn_length_le; lia).
      assert (Forall (fun x : list Z => length x = w) (firstn k ws)) as H.
      { rewrite <- (firstn_skipn k ws) in Hw. apply Forall_app in Hw. tauto. }
      rewrite <- Hk' at 2. clear Hk'. induction (firstn k ws) as [|y l IH]; [reflexivity|].
      inversion H; subst. cbn [map concat length]. rewrite app_length, rev_length, IH by assumption. lia. }
    rewrite Hs. cbn [concat]. rewrite <- app_assoc. rewrite <- Hx.
    rewrite reverse_word_app.
    + eexists; split; [reflexivity|]. rewrite Hf, map_app, concat_app. cbn [map concat]. rewrite app_nil_r, <- Hr.
      rewrite <- !app_assoc. reflexivity.
    + intros i Hi. rewrite Hl, Hx in *. apply Hfg; assumption.
  - rewrite Hb, firstn_all, skipn_all. reflexivity.
Qed.

Lemma swap_words_spec w ws post : Forall (fun x : list Z => length x = w) ws -> 0 < w ->
  swap_words (length ws) w (w / 2) (concat ws ++ post) = Some (concat (map (@rev Z) ws) ++ post).
Proof.
  intros Hw Hpos. unfold swap_words.
  apply (reverse_words (fun k i => k * w + i) (fun k i => k * w + (w - 1) - i)); [assumption|].
  intros k i Hk Hi. assert (i < w) by (pose proof (Nat.div_lt w 2); lia). lia.
Qed.

Lemma reorder_spec w ws post : Forall (fun x : list Z => length x = w) ws -> 0 < w ->
  reorder (concat ws ++ post) w (length ws) = Some (concat (map (@rev Z) ws) ++ post).
Proof.
  intros Hw Hpos. unfold reorder.
  apply (reverse_words (fun k i => k * w + i) (fun k i => (k + 1) * w - (i + 1))); [assumption|].
  intros k i Hk Hi. assert (i < w) by (pose proof (Nat.div_lt w 2); lia). lia.
Qed.

Lemma is_sys_order_spec sys e : is_sys_order sys e = order_eqb sys e.
Proof. destruct sys, e; reflexivity. Qed.

Lemma rd_read_full cap buf bs s : length bs = length buf -> length buf <= cap ->
  rd_read cap buf (bs ++ s) = (false, bs, s).
Proof.
  intros Hl Hc. unfold rd_read. rewrite app_length.
  replace (Nat.min cap (Nat.min (length buf) (length bs + length s))) with (length bs) by lia.
  rewrite firstn_app, firstn_all, Nat.sub_diag, skipn_app, skipn_all, Nat.sub_diag. cbn [firstn skipn app].
  rewrite app_nil_r, Hl, skipn_all, app_nil_r.
  destruct buf; [destruct (bs ++ s); reflexivity|]. destruct bs; [discriminate|]. reflexivity.
Qed.

(** Reading words of one size in either order. *)
Lemma put_other sys e n v : sys <> e -> rev (put e n v) = put sys n v.
Proof. destruct sys, e; try congruence; intros _; cbn [put]; now rewrite ?rev_involutive. Qed.

Lemma concat_map_flat {A} (f : A -> list Z) l : concat (map f l) = flat_map f l.
Proof. symmetry. apply flat_map_concat_map. Qed.

Lemma read_block_words sys e cap n (xs : list Z) buf s swapper :
  0 < n -> length buf = n * length xs -> length buf <= cap ->
  (forall ws, Forall (fun x : list Z => length x = n) ws -> length ws = length xs ->
     swapper (concat ws) = Some (concat (map (@rev Z) ws))) ->
  read_block swapper sys e cap buf (flat_map (put e n) xs ++ s) = Some (false, flat_map (put sys n) xs, s).
Proof.
  intros Hn Hb Hc Hs. unfold read_block.
  rewrite rd_read_full; [|rewrite (flat_map_length _ n) by (intros; apply put_length); lia|assumption].
  rewrite is_sys_order_spec. destruct (order_eqb sys e) eqn:E.
  - destruct sys, e; try discriminate; reflexivity.
  - rewrite <- concat_map_flat, Hs.
    + rewrite map_map. rewrite <- concat_map_flat. do 3 f_equal. do 1 f_equal. apply map_ext. intros v. apply put_other.
      intros ->. destruct e; discriminate.
    + apply Forall_forall. intros x Hx. apply in_map_iff in Hx as (v & <- & _). apply put_length.
    + now rewrite map_length.
Qed.

Lemma concat_words_nil ws : concat ws = concat ws ++ @nil Z.
Proof. symmetry; apply app_nil_r. Qed.

Lemma read_int64_spec sys e cap xs buf s : length buf = 8 * length xs -> length buf <= cap ->
  read_int64_as_byte sys e cap (length xs) buf (flat_map (put e 8) xs ++ s) = Some (false, flat_map (put sys 8) xs, s).
Proof.
  intros. apply read_block_words; [lia|assumption|assumption|]. intros ws Hw Hl. rewrite <- Hl.
  rewrite (concat_words_nil ws), (concat_words_nil (map _ _)). apply (swap_words_spec 8); [assumption|lia].
Qed.

Lemma read_int32_spec sys e cap xs buf s : length buf = 4 * length xs -> length buf <= cap ->
  read_int32_as_byte sys e cap (length xs) buf (flat_map (put e 4) xs ++ s) = Some (false, flat_map (put sys 4) xs, s).
Proof.
  intros. apply read_block_words; [lia|assumption|assumption|]. intros ws Hw Hl. rewrite <- Hl.
  rewrite (concat_words_nil ws), (concat_words_nil (map _ _)). apply (swap_words_spec 4); [assumption|lia].
Qed.

Lemma read_float32_spec sys e cap xs buf s : length buf = 4 * length xs -> length buf <= cap ->
  read_float32_as_byte sys e cap (length xs) buf (flat_map (put e 4) xs ++ s) = Some (false, flat_map (put sys 4) xs, s).
Proof. apply read_int32_spec. Qed.

Lemma read_vec_spec sys e cap n xs buf s : length xs = 3 * n -> length buf = 12 * n -> length buf <= cap ->
  read_vec_as_byte sys e cap n buf (flat_map (put e 4) xs ++ s) = Some (false, flat_map (put sys 4) xs, s).
Proof.
  intros Hx Hb Hc. apply read_block_words; [lia|lia|lia|]. intros ws Hw Hl.
  replace (n * 3) with (length ws) by lia.
  rewrite (concat_words_nil ws), (concat_words_nil (map _ _)). apply (swap_words_spec 4); [assumption|lia].
Qed.

Lemma on_slice_mid f pre m m' post a b : length pre = a -> length pre + length m = b ->
  f m = Some m' -> on_slice f (pre ++ m ++ post) a b = Some (pre ++ m' ++ post).
Proof.
  intros <- <- Hf. unfold on_slice. rewrite !app_length.
  rewrite (proj2 (Nat.leb_le _ _)), (proj2 (Nat.leb_le _ _)) by lia. cbn [andb].
  replace (length pre + length m - length pre) with (length m) by lia.
  rewrite skipn_app, skipn_all, Nat.sub_diag. cbn [skipn app].
  rewrite firstn_app, firstn_all, Nat.sub_diag. cbn [firstn]. rewrite app_nil_r, Hf.
  rewrite firstn_app, firstn_all, Nat.sub_diag. cbn [firstn]. rewrite app_nil_r.
  rewrite skipn_app, skipn_all2 by lia. replace (length pre + length m - length pre) with (length m) by lia.
  rewrite skipn_app, skipn_all, Nat.sub_diag. cbn [skipn app]. reflexivity.
Qed.

(** A Bolshoi particle: its six float32 bit patterns and its int64 bit pattern. *)
Definition put_bolshoi (o : order) (p : list Z * Z) : list Z := flat_map (put o 4) (fst p) ++ put o 8 (snd p).

Lemma put_bolshoi_length o p : length (fst p) = 6 -> length (put_bolshoi o p) = 32.
Proof.
  intros H. unfold put_bolshoi. rewrite app_length, put_length, (flat_map_length _ 4) by (intros; apply put_length).
  rewrite H. reflexivity.
Qed.

Lemma reorder_put o o' n xs : 0 < n -> o <> o' ->
  reorder (flat_map (put o n) xs) n (length xs) = Some (flat_map (put o' n) xs).
Proof.
  intros Hn Ho. rewrite <- !concat_map_flat. rewrite <- (map_length (put o n) xs).
  rewrite (concat_words_nil (map (put o n) xs)).
  rewrite reorder_spec; [|apply Forall_forall; intros x Hx; apply in_map_iff in Hx as (v & <- & _); apply put_length|assumption].
  rewrite app_nil_r, map_map. do 2 f_equal. apply map_ext. intros v. apply put_other. congruence.
Qed.

Lemma bolshoi_swap o o' ps : o <> o' -> Forall (fun p : list Z * Z => length (fst p) = 6) ps ->
  loop (length ps) (fun i b =>
      let offset := i * 32 in
      do b1 <- on_slice (fun m => reorder m 4 6) b offset (offset + 24);
      on_slice (fun m => reorder m 8 1) b1 (offset + 24) (offset + 24 + 8)) (flat_map (put_bolshoi o) ps)
  = Some (flat_map (put_bolshoi o') ps).
Proof.
  intros Ho Hp.
  destruct (loop_inv (fun k b => b = flat_map (put_bolshoi o') (firstn k ps) ++ flat_map (put_bolshoi o) (skipn k ps))
   (length ps) (fun i b =>
      let offset := i * 32 in
      do b1 <- on_slice (fun m => reorder m 4 6) b offset (offset + 24);
      on_slice (fun m => reorder m 8 1) b1 (offset + 24) (offset + 24 + 8)) (flat_map (put_bolshoi o) ps)) as (b & Hb & ->).
  - reflexivity.
  - intros k b Hk ->. cbv zeta.
    assert (exists x, skipn k ps = x :: skipn (S k) ps /\ firstn (S k) ps = firstn k ps ++ [x]) as (x & Hs & Hf).
    { clear -Hk. revert k Hk; induction ps as [|a ws IH]; intros k Hk; cbn [length] in Hk; [lia|].
      destruct k as [|k]; [exists a; split; reflexivity|].
      destruct (IH k ltac:(lia)) as (x & H1 & H2). exists x. split; [exact H1|].
      change (firstn (S (S k)) (a :: ws)) with (a :: firstn (S k) ws). rewrite H2. reflexivity. }
    assert (length (fst x) = 6) as Hx.
    { apply (proj1 (Forall_forall _ _) Hp). rewrite <- (firstn_skipn k ps), Hs. apply in_or_app. right. now left. }
    assert (length (flat_map (put_bolshoi o') (firstn k ps)) = 32 * k) as Hl.
    { rewrite <- (firstn_length_le ps) with (n := k) at 2 by lia.
      assert (Forall (fun p : list Z * Z => length (fst p) = 6) (firstn k ps)) as H.
      { rewrite <- (firstn_skipn k ps) in Hp. apply Forall_app in Hp. tauto. }
      clear -H. induction (firstn k ps) as [|y l IH]; [reflexivity|]. inversion H; subst. cbn [flat_map length].
      rewrite app_length, IH, put_bolshoi_length by assumption. lia. }
    rewrite Hs. cbn [flat_map]. unfold put_bolshoi at 2. rewrite <- !app_assoc.
    rewrite on_slice_mid with (m' := flat_map (put o' 4) (fst x)).
    + rewrite !app_assoc. rewrite <- (app_assoc _ (put o 8 (snd x))).
      rewrite on_slice_mid with (m' := put o' 8 (snd x)).
      * eexists; split; [reflexivity|]. rewrite Hf, flat_map_app. cbn [flat_map]. rewrite app_nil_r.
        rewrite <- !app_assoc. f_equal. unfold put_bolshoi at 2. rewrite <- !app_assoc. reflexivity.
      * rewrite app_length, Hl, (flat_map_length _ 4) by (intros; apply put_length). rewrite Hx. lia.
      * rewrite app_length, Hl, (flat_map_length _ 4) by (intros; apply put_length). rewrite Hx, put_length. lia.
      * pose proof (reorder_put o o' 8 [snd x] ltac:(lia) Ho) as H. cbn [flat_map length] in H. rewrite !app_nil_r in H. exact H.
    + lia.
    + rewrite Hl, (flat_map_length _ 4) by (intros; apply put_length). rewrite Hx. lia.
    + rewrite <- Hx. apply reorder_put; [lia|assumption].
  - rewrite Hb, firstn_all, skipn_all. cbn [flat_map]. now rewrite app_nil_r.
Qed.

Lemma read_bolshoi_spec sys e cap ps buf s : Forall (fun p : list Z * Z => length (fst p) = 6) ps ->
  length buf = 32 * length ps -> length buf <= cap ->
  read_bolshoi_as_byte sys e cap (length ps) buf (flat_map (put_bolshoi e) ps ++ s)
  = Some (false, flat_map (put_bolshoi sys) ps, s).
Proof.
  intros Hp Hb Hc. unfold read_bolshoi_as_byte, read_block.
  assert (length (flat_map (put_bolshoi e) ps) = 32 * length ps) as Hl.
  { clear -Hp. induction ps as [|y l IH]; [reflexivity|]. inversion Hp; subst. cbn [flat_map length].
    rewrite app_length, IH, put_bolshoi_length by assumption. lia. }
  rewrite rd_read_full by lia. rewrite is_sys_order_spec. destruct (order_eqb sys e) eqn:E.
  - destruct sys, e; try discriminate; reflexivity.
  - rewrite (bolshoi_swap e sys); [reflexivity| |assumption]. intros ->. destruct sys; discriminate.
Qed.

(** Short reads. *)
Lemma read_block_short sys e cap buf s swapper r : cap < length buf \/ length s < length buf ->
  s <> [] -> read_block swapper sys e cap buf s = Some r ->
  exists buf' s', r = (false, buf', s').
Proof.
  intros Hsh Hs Hr. unfold read_block, rd_read in Hr. destruct s as [|z s]; [congruence|].
  assert (match buf with [] => false | _ :: _ => false end = false) as E by (destruct buf; reflexivity).
  rewrite E in Hr. destruct (is_sys_order sys e); [injection Hr as <-; eauto|].
  destruct (swapper _); [injection Hr as <-; eauto|discriminate].
Qed.
