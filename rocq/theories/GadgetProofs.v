(** * Proofs about Gadget-2 files. *)
From Verif Require Export GadgetSpec OrderProofs.
Local Open Scope nat_scope.

Lemma chunks_flat_map_in {A} (f : A -> list Z) n xs :
  (forall x, In x xs -> length (f x) = n) -> chunks n (length xs) (flat_map f xs) = map f xs.
Proof.
  induction xs as [|a xs IH]; intros H; cbn [flat_map length chunks map]; [reflexivity|].
  rewrite firstn_app, skipn_app, (H a) by now left. rewrite Nat.sub_diag. cbn [firstn skipn].
  rewrite firstn_all2, skipn_all2 by (rewrite (H a) by (now left); lia). rewrite app_nil_r. cbn [app].
  rewrite IH; [reflexivity|]. intros x Hx. apply H. now right.
Qed.

Lemma flat_map_length_in {A} (f : A -> list Z) n xs :
  (forall x, In x xs -> length (f x) = n) -> length (flat_map f xs) = n * length xs.
Proof.
  induction xs as [|a xs IH]; intros H; cbn [flat_map length]; [lia|].
  rewrite app_length, IH by (intros; apply H; now right). rewrite (H a) by now left. lia.
Qed.

(** ** Header *)
Lemma put_words_length e sizes h : length h = length sizes -> length (put_words e sizes h) = fold_right plus 0 sizes.
Proof.
  revert h; induction sizes as [|n sizes IH]; intros [|w h] H; try discriminate; [reflexivity|].
  cbn [put_words fold_right]. rewrite app_length, put_length, IH by (cbn in H; lia). reflexivity.
Qed.

Lemma decode_put_words e sizes h : Forall2 word sizes h -> decode_words e sizes (put_words e sizes h) = h.
Proof.
  induction 1 as [|n w sizes h Hw _ IH]; cbn [put_words decode_words]; [reflexivity|].
  rewrite firstn_app, skipn_app, put_length, Nat.sub_diag. cbn [firstn skipn].
  rewrite firstn_all2, skipn_all2 by (rewrite put_length; lia). rewrite app_nil_r. cbn [app].
  rewrite IH, get_put_small by exact Hw. reflexivity.
Qed.

Lemma read_i32_app e v s : exists w, read_i32 e (put_int e 4 v ++ s) = Some (w, s) /\ w = get_int e (put_int e 4 v).
Proof. unfold read_i32. rewrite read_full_app by apply put_int_length. eauto. Qed.

Lemma read_header_app e h s : Forall2 word header_layout h ->
  read_header e (put_words e header_layout h ++ s) = (h, s).
Proof.
  intros H. unfold read_header. rewrite read_full_app.
  - rewrite decode_put_words by exact H. reflexivity.
  - rewrite put_words_length by (symmetry; eapply Forall2_length; exact H). reflexivity.
Qed.

(** ** Offsets *)
Fixpoint psum (gh : list Z) (f : nat -> bool) (i : nat) : nat :=
  match i with 0 => 0 | S k => psum gh f k + (if f k then gh_npart gh k else 0) end.

Lemma count_psum gh f : count_if gh f = psum gh f 6.
Proof.
  unfold count_if. cbn [seq fold_left psum].
  destruct (f 0), (f 1), (f 2), (f 3), (f 4), (f 5); lia.
Qed.

Lemma offsets_spec gh f : exists offs, offsets gh f = Some offs /\ length offs = 7 /\
  forall i, i <= 6 -> rd offs i = Some (psum gh f i).
Proof.
  unfold offsets.
  destruct (loop_inv (fun k offs => length offs = 7 /\ forall i, i <= k -> nth i offs 0 = psum gh f i) 6
    (fun i offs => do o <- rd offs i; wr offs (i + 1) (if f i then o + gh_npart gh i else o)) (repeat 0 7))
    as (offs & Ho & Hl & Hn).
  - split; [reflexivity|]. intros i Hi. replace i with 0 by lia. reflexivity.
  - intros i offs Hi [Hl Hn]. rewrite (rd_nth offs i 0) by lia.
    destruct (wr_some offs (i + 1) (if f i then nth i offs 0 + gh_npart gh i else nth i offs 0) 0) as (o' & Hw & Hl' & Hn'); [lia|].
    exists o'. split; [exact Hw|]. split; [lia|]. intros j Hj. rewrite Hn'.
    destruct (Nat.eqb_spec j (i + 1)).
    + subst j. rewrite Nat.add_1_r. cbn [psum]. rewrite (Hn i) by lia. destruct (f i); lia.
    + apply Hn. lia.
  - exists offs. split; [exact Ho|]. split; [exact Hl|]. intros i Hi. rewrite (rd_nth offs i 0) by lia. now rewrite Hn.
Qed.

Lemma psum_mono gh f i j : i <= j -> psum gh f i <= psum gh f j.
Proof. induction 1; [lia|]. cbn [psum]. lia. Qed.

Lemma psum_le gh f i : psum gh f i <= psum gh (fun _ => true) i.
Proof. induction i; cbn [psum]; [lia|]. destruct (f i); lia. Qed.

(** ** Blocks: six lists, concatenated *)
Section Blocks.
Context {A : Type} (gh : list Z) (blk : nat -> list A).
Hypothesis Hblk : forall t, t < 6 -> gh_npart gh t = length (blk t).

Fixpoint cat (f : nat -> bool) (k : nat) : list A :=
  match k with 0 => [] | S t => cat f t ++ (if f t then blk t else []) end.

Fixpoint cat_from (k n : nat) : list A :=
  match n with 0 => [] | S n' => blk k ++ cat_from (S k) n' end.

Lemma cat_length f k : k <= 6 -> length (cat f k) = psum gh f k.
Proof.
  induction k; intros H; [reflexivity|]. cbn [cat psum]. rewrite app_length, IHk by lia.
  destruct (f k); [rewrite Hblk by lia|]; reflexivity.
Qed.

Lemma cat_split k n : cat (fun _ => true) (k + n) = cat (fun _ => true) k ++ cat_from k n.
Proof.
  revert k; induction n as [|n IH]; intros k; cbn [cat_from]; [rewrite Nat.add_0_r, app_nil_r; reflexivity|].
  replace (k + S n) with (S k + n) by lia. rewrite IH. cbn [cat]. now rewrite app_assoc.
Qed.

Lemma pack_spec (c : Context) post :
  exists buf, pack gh c (cat (fun _ => true) 6 ++ post) = Some buf /\
    slice_of buf 0 (dm_count gh c) = Some (cat (is_dm c) 6).
Proof.
  unfold pack. destruct (offsets_spec gh (is_dm c)) as (doffs & -> & _ & Hd).
  destruct (offsets_spec gh (fun _ => true)) as (offs & -> & _ & Ho).
  match goal with |- context [loop 6 ?b ?s] =>
    destruct (loop_inv (fun k buf => exists mid, buf = cat (is_dm c) k ++ mid ++ cat_from k (6 - k) ++ post /\
       psum gh (is_dm c) k + length mid = psum gh (fun _ => true) k) 6 b s) as (buf & -> & mid & Hb & Hm)
  end.
  - exists []. split; [|reflexivity]. rewrite (cat_split 0 6 : cat (fun _ => true) 6 = _). reflexivity.
  - intros k buf Hk (mid & -> & Hm). destruct (is_dm c k) eqn:E.
    + rewrite !Hd, !Ho by lia.
      replace (k + 1) with (S k) by lia.
      set (pre := cat (is_dm c) k ++ mid).
      assert (length pre = psum gh (fun _ => true) k) as Hp.
      { unfold pre. rewrite app_length, cat_length by lia. lia. }
      replace (6 - k) with (S (6 - S k)) by lia. cbn [cat_from].
      set (rest := cat_from (S k) (6 - S k) ++ post).
      replace (cat (is_dm c) k ++ mid ++ (blk k ++ cat_from (S k) (6 - S k)) ++ post) with (pre ++ blk k ++ rest)
        by (unfold pre, rest; rewrite <- !app_assoc; reflexivity).
      unfold slice_of. rewrite !app_length, Hp. cbn [psum]. rewrite E, (Hblk k Hk).
      rewrite (proj2 (Nat.leb_le _ _)), (proj2 (Nat.leb_le _ _)) by lia. cbn [andb].
      replace (psum gh (fun _ => true) k + length (blk k) - psum gh (fun _ => true) k) with (length (blk k)) by lia.
      rewrite <- Hp, skipn_app, skipn_all, Nat.sub_diag. cbn [skipn app].
      rewrite firstn_app, firstn_all, Nat.sub_diag. cbn [firstn]. rewrite app_nil_r.
      unfold copy_to. rewrite !app_length, Hp.
      rewrite (proj2 (Nat.leb_le _ _)), (proj2 (Nat.leb_le _ _)) by (pose proof (psum_le gh (is_dm c) k); lia). cbn [andb].
      replace (psum gh (is_dm c) k + length (blk k) - psum gh (is_dm c) k) with (length (blk k)) by lia.
      rewrite Nat.min_id, firstn_all.
      exists (cat (is_dm c) k ++ blk k ++ skipn (psum gh (is_dm c) k + length (blk k)) (pre ++ blk k ++ rest)).
      split.
      * do 2 f_equal. unfold pre. rewrite <- app_assoc. rewrite firstn_app, <- (cat_length (is_dm c) k) by lia.
        rewrite firstn_all, Nat.sub_diag. cbn [firstn]. apply app_nil_r.
      * (* the part after the copied block: leftovers then the rest *)
        exists (skipn (psum gh (is_dm c) k + length (blk k)) (pre ++ blk k)). split.
        -- cbn [cat]. rewrite E. rewrite <- !app_assoc. do 2 f_equal.
           rewrite (app_assoc pre), skipn_app.
           replace (psum gh (is_dm c) k + length (blk k) - length (pre ++ blk k)) with 0
             by (rewrite app_length, Hp; pose proof (psum_le gh (is_dm c) k); lia).
           reflexivity.
        -- rewrite skipn_length, app_length, Hp. pose proof (psum_le gh (is_dm c) k). lia.
    + eexists. split; [reflexivity|]. exists (mid ++ blk k). split.
      * cbn [cat]. rewrite E, app_nil_r. replace (6 - k) with (S (6 - S k)) by lia. cbn [cat_from].
        rewrite <- !app_assoc. reflexivity.
      * cbn [psum]. rewrite E, app_length, (Hblk k Hk). lia.
  - exists buf. split; [reflexivity|]. unfold dm_count. rewrite count_psum. unfold slice_of.
    subst buf. rewrite !app_length, (cat_length (is_dm c) 6) by lia.
    rewrite (proj2 (Nat.leb_le _ _)), (proj2 (Nat.leb_le _ _)) by lia. cbn [andb skipn]. rewrite Nat.sub_0_r.
    rewrite firstn_app, <- (cat_length (is_dm c) 6) by lia.
    rewrite firstn_all, Nat.sub_diag. cbn [firstn]. now rewrite app_nil_r.
Qed.
End Blocks.

Lemma cat_map {A B} (g : A -> B) (blk : nat -> list A) f k :
  cat (fun t => map g (blk t)) f k = map g (cat blk f k).
Proof. induction k; [reflexivity|]. cbn [cat]. rewrite map_app, IHk. destruct (f k); reflexivity. Qed.

Lemma cat_ext {A} (b1 b2 : nat -> list A) f k : (forall t, t < k -> f t = true -> b1 t = b2 t) -> cat b1 f k = cat b2 f k.
Proof.
  induction k; intros H; [reflexivity|]. cbn [cat]. rewrite IHk by (intros; apply H; [lia|assumption]).
  destruct (f k) eqn:E; [rewrite (H k) by (lia || assumption)|]; reflexivity.
Qed.

(** Filling a range with one value. *)
Lemma fill_range {A} (v : A) (pre m post : list A) :
  loop_from (length pre) (length pre + length m) (fun j ms => wr ms j v) (pre ++ m ++ post)
  = Some (pre ++ repeat v (length m) ++ post).
Proof.
  unfold loop_from. replace (length pre + length m - length pre) with (length m) by lia.
  destruct (loop_inv (fun k b => b = pre ++ repeat v k ++ skipn k m ++ post) (length m)
     (fun i => (fun j ms => wr ms j v) (length pre + i)) (pre ++ m ++ post)) as (b & Hb & ->).
  - reflexivity.
  - intros k b Hk ->. cbv beta.
    assert (exists x, skipn k m = x :: skipn (S k) m) as (x & Hx).
    { clear -Hk. revert k Hk; induction m as [|a m IH]; intros [|k] Hk; cbn [length] in Hk; try lia; [exists a; reflexivity|].
      destruct (IH k) as (x & E); [lia|]. exists x. exact E. }
    rewrite Hx. exists (pre ++ repeat v (S k) ++ skipn (S k) m ++ post). split; [|reflexivity].
    replace (repeat v (S k)) with (repeat v k ++ [v]) by (symmetry; apply repeat_cons).
    cbn [app]. rewrite <- !app_assoc. cbn [app].
    rewrite !(app_assoc pre). set (q := pre ++ repeat v k).
    replace (length pre + k) with (length q) by (unfold q; rewrite app_length, repeat_length; lia).
    unfold wr. clear. induction q as [|a q IH]; [reflexivity|]. cbn [app length upd]. rewrite IH. reflexivity.
  - cbv beta in Hb. rewrite Hb, skipn_all. reflexivity.
Qed.

Section Mass.
Context (F : f32ops) (gh : list Z) (c : Context) (blk : nat -> list Z).
Hypothesis Hblk : forall t, t < 6 -> gh_npart gh t = length (blk t).

Definition out_mass (t : nat) : list Z :=
  if is_multi_mass c t then blk t else repeat (f32_of_64 F (gh_mass gh t)) (length (blk t)).

Lemma out_mass_length t : length (out_mass t) = length (blk t).
Proof. unfold out_mass. destruct (is_multi_mass c t); [reflexivity|apply repeat_length]. Qed.

Lemma unpack_mass_spec ms : length ms = particle_count gh ->
  unpack_mass F gh c (cat blk (is_multi_mass c) 6) ms = Some (cat out_mass (fun _ => true) 6).
Proof.
  intros Hms. unfold particle_count in Hms. rewrite count_psum in Hms.
  unfold unpack_mass. destruct (offsets_spec gh (is_multi_mass c)) as (moffs & -> & _ & Hm).
  destruct (offsets_spec gh (fun _ => true)) as (offs & -> & _ & Ho).
  assert (forall t, t < 6 -> gh_npart gh t = length (out_mass t)) as Hout.
  { intros t Ht. rewrite out_mass_length. now apply Hblk. }
  match goal with |- loop 6 ?b ?s = _ =>
    destruct (loop_inv (fun k buf => buf = cat out_mass (fun _ => true) k ++ skipn (psum gh (fun _ => true) k) ms) 6 b s) as (buf & -> & ->)
  end.
  - reflexivity.
  - intros k buf Hk ->. rewrite !Ho by lia. replace (k + 1) with (S k) by lia.
    assert (length (cat out_mass (fun _ => true) k) = psum gh (fun _ => true) k) as Hl by (apply cat_length; [assumption|lia]).
    pose proof (psum_mono gh (fun _ => true) (S k) 6 ltac:(lia)) as Hmono. rewrite <- Hms in Hmono.
    cbn [psum] in Hmono. rewrite (Hblk k Hk) in Hmono.
    set (pre := cat out_mass (fun _ => true) k) in *.
    set (P := psum gh (fun _ => true) k) in *.
    assert (psum gh (fun _ => true) (S k) = P + length (blk k)) as HS by (cbn [psum]; rewrite (Hblk k Hk); reflexivity).
    set (tl := skipn P ms).
    assert (length tl = length ms - P) as Htl by apply skipn_length.
    assert (tl = firstn (length (blk k)) tl ++ skipn (length (blk k)) tl) as Hsplit by (symmetry; apply firstn_skipn).
    assert (skipn (length (blk k)) tl = skipn (P + length (blk k)) ms) as Hsk by (unfold tl; rewrite skipn_skipn; reflexivity).
    assert (cat out_mass (fun _ => true) (S k) = pre ++ out_mass k) as Hcat by reflexivity. rewrite Hcat.
    unfold out_mass. destruct (is_multi_mass c k) eqn:E.
    + rewrite !Hm by lia.
      assert (slice_of (cat blk (is_multi_mass c) 6) (psum gh (is_multi_mass c) k) (psum gh (is_multi_mass c) (S k)) = Some (blk k)) as ->.
      { assert (exists post, cat blk (is_multi_mass c) 6 = cat blk (is_multi_mass c) k ++ blk k ++ post) as (post & ->).
        { assert (forall n, exists post, cat blk (is_multi_mass c) (S k + n) = cat blk (is_multi_mass c) k ++ blk k ++ post) as Hn.
          { induction n as [|n (post & IH)].
            - rewrite Nat.add_0_r. cbn [cat]. rewrite E. exists []. now rewrite app_nil_r.
            - replace (S k + S n) with (S (S k + n)) by lia. cbn [cat] in *. rewrite IH. eexists. rewrite <- !app_assoc. reflexivity. }
          destruct (Hn (5 - k)) as (post & Hp). replace (S k + (5 - k)) with 6 in Hp by lia. exists post. exact Hp. }
        unfold slice_of. rewrite !app_length.
        assert (length (cat blk (is_multi_mass c) k) = psum gh (is_multi_mass c) k) as Hlm by (apply cat_length; [assumption|lia]).
        cbn [psum]. rewrite E, (Hblk k Hk), Hlm.
        rewrite (proj2 (Nat.leb_le _ _)), (proj2 (Nat.leb_le _ _)) by lia. cbn [andb].
        match goal with |- context [firstn ?a] => replace a with (length (blk k)) by lia end.
        rewrite <- Hlm, skipn_app, skipn_all, Nat.sub_diag. cbn [skipn app].
        rewrite firstn_app, firstn_all, Nat.sub_diag. cbn [firstn]. now rewrite app_nil_r. }
      unfold copy_to. rewrite HS, app_length, Hl, Htl.
      rewrite (proj2 (Nat.leb_le _ _)), (proj2 (Nat.leb_le _ _)) by lia. cbn [andb].
      replace (P + length (blk k) - P) with (length (blk k)) by lia. rewrite Nat.min_id, firstn_all.
      eexists. split; [reflexivity|].
      rewrite <- Hl at 1. rewrite firstn_app, firstn_all, Nat.sub_diag. cbn [firstn]. rewrite app_nil_r, <- app_assoc.
      do 2 f_equal. rewrite skipn_app, skipn_all2 by lia. cbn [app]. rewrite Hl.
      replace (P + length (blk k) - P) with (length (blk k)) by lia. rewrite Hsk. reflexivity.
    + rewrite HS. rewrite Hsplit. set (m := firstn (length (blk k)) tl).
      assert (length m = length (blk k)) as Hlm by (unfold m; apply firstn_length_le; lia).
      rewrite <- Hlm, <- Hl. rewrite fill_range. eexists. split; [reflexivity|].
      rewrite Hlm, Hsk, <- app_assoc. rewrite Hl. reflexivity.
  - rewrite <- Hms, skipn_all, app_nil_r. reflexivity.
Qed.
End Mass.
