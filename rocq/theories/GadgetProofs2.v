(** * Reading a whole Gadget-2 file. *)
From Verif Require Export GadgetProofs.
Local Open Scope nat_scope.

Definition tblk (parts : list (list particle)) (t : nat) : list (nat * particle) :=
  map (fun p => (t, p)) (nth t parts []).

Lemma flat_map_cat {A} (b : nat -> list A) k : flat_map b (seq 0 k) = cat b (fun _ => true) k.
Proof.
  induction k; [reflexivity|]. rewrite seq_S, flat_map_app, IHk. cbn [flat_map cat]. now rewrite app_nil_r.
Qed.

Lemma typed_cat parts : typed parts = cat (tblk parts) (fun _ => true) 6.
Proof. apply flat_map_cat. Qed.

Lemma filter_cat parts f k :
  filter (fun tp => f (fst tp)) (cat (tblk parts) (fun _ => true) k) = cat (tblk parts) f k.
Proof.
  induction k; [reflexivity|]. cbn [cat]. rewrite filter_app, IHk. f_equal.
  unfold tblk. induction (nth k parts []) as [|p l IH]; cbn [map filter fst].
  - destruct (f k); reflexivity.
  - rewrite IH. destruct (f k); reflexivity.
Qed.

Lemma listed_spec l t : existsb (fun j => Z.eqb j (Z.of_nat t)) l = listed l t.
Proof.
  unfold listed. destruct (in_dec Z.eq_dec (Z.of_nat t) l) as [H|H].
  - apply existsb_exists. exists (Z.of_nat t). split; [exact H|apply Z.eqb_refl].
  - apply Bool.not_true_iff_false. intros E. apply existsb_exists in E as (j & Hj & E). apply Z.eqb_eq in E. subst. contradiction.
Qed.

Lemma cat_fext {A} (b : nat -> list A) f g k : (forall t, t < k -> f t = g t) -> cat b f k = cat b g k.
Proof.
  induction k; intros H; [reflexivity|]. cbn [cat]. rewrite IHk by (intros; apply H; lia). rewrite (H k) by lia. reflexivity.
Qed.

Lemma flat_map_flat_map {A B C} (f : B -> list C) (g : A -> list B) l :
  flat_map f (flat_map g l) = flat_map (fun a => flat_map f (g a)) l.
Proof. induction l; [reflexivity|]. cbn [flat_map]. now rewrite flat_map_app, IHl. Qed.

Lemma flat_map_map {A B C} (f : B -> list C) (g : A -> B) l : flat_map f (map g l) = flat_map (fun a => f (g a)) l.
Proof. induction l; [reflexivity|]. cbn [map flat_map]. now rewrite IHl. Qed.

Lemma mem_words_put sys n xs : Forall (word n) xs -> mem_words sys n (length xs) (flat_map (put sys n) xs) = xs.
Proof.
  intros H. unfold mem_words. rewrite chunks_flat_map by (intros; apply put_length). rewrite map_map.
  rewrite <- (map_id xs) at 2. apply map_ext_in. intros v Hv. apply get_put_small.
  exact (proj1 (Forall_forall _ _) H v Hv).
Qed.

Lemma mem_ints_put sys n xs : Forall (fits n) xs ->
  mem_ints sys n (length xs) (flat_map (put sys n) (map (unsign n) xs)) = xs.
Proof.
  intros H. unfold mem_ints. rewrite <- (map_length (unsign n) xs) at 1.
  rewrite chunks_flat_map by (intros; apply put_length). rewrite !map_map.
  rewrite <- (map_id xs) at 2. apply map_ext_in. intros v Hv. apply get_put_int.
  exact (proj1 (Forall_forall _ _) H v Hv).
Qed.

Section Read.
Context (F : f32ops) (sys e : order) (cap : nat) (stale : nat -> list Z) (c : Context).
Context (idw : nat) (h : list Z) (parts : list (list particle)).
Hypothesis Hstale : forall n, length (stale n) = n.
Hypothesis Hgood : good_snapshot idw h parts.
Let N := length (typed parts).
Hypothesis Hcap : 12 * N <= cap.

Lemma npart_tblk t : t < 6 -> gh_npart h t = length (tblk parts t).
Proof.
  intros Ht. unfold gh_npart, tblk. rewrite (gs_counts _ _ _ Hgood t Ht), map_length. apply Nat2Z.id.
Qed.

Lemma N_psum : N = psum h (fun _ => true) 6.
Proof. unfold N. rewrite typed_cat. apply cat_length; [exact npart_tblk|lia]. Qed.

Lemma good_typed tp : In tp (typed parts) -> good_particle idw (snd tp).
Proof.
  intros H. unfold typed in H. apply in_flat_map in H as (t & Ht & H). apply in_map_iff in H as (p & <- & Hp).
  apply in_seq in Ht. cbn [snd].
  apply (proj1 (Forall_forall _ _) (proj1 (Forall_forall _ _) (gs_parts _ _ _ Hgood) (nth t parts []) ltac:(apply nth_In; rewrite (gs_types _ _ _ Hgood); lia))).
  exact Hp.
Qed.

Lemma read_vecs (g : particle -> list Z) s :
  (forall tp, In tp (typed parts) -> length (g (snd tp)) = 3 /\ Forall (word 4) (g (snd tp))) ->
  exists mem, read_vec_as_byte sys e cap N (stale (12 * N))
      (flat_map (fun p => flat_map (put e 4) (g p)) (map snd (typed parts)) ++ s) = Some (false, mem, s)
    /\ mem_vecs sys N mem = map (fun tp => g (snd tp)) (typed parts).
Proof.
  intros Hg. set (ws := flat_map (fun tp => g (snd tp)) (typed parts)).
  assert (length ws = 3 * N) as Hl.
  { unfold ws. apply flat_map_length_in. intros tp H. apply Hg; assumption. }
  assert (Forall (word 4) ws) as Hw.
  { unfold ws. apply Forall_forall. intros v Hv. apply in_flat_map in Hv as (tp & Htp & Hv).
    apply (proj1 (Forall_forall _ _) (proj2 (Hg tp Htp))). exact Hv. }
  exists (flat_map (put sys 4) ws). split.
  - rewrite flat_map_map, <- flat_map_flat_map. apply read_vec_spec; [exact Hl|apply Hstale|rewrite Hstale; exact Hcap].
  - unfold mem_vecs. rewrite <- Hl, mem_words_put by exact Hw. unfold ws, N. apply chunks_flat_map_in.
    intros tp H. apply Hg; assumption.
Qed.

Lemma read_ids_spec s : N <> 0 -> (idw = 8 \/ idw = 4) -> (Z.of_nat (idw * N) < 2 ^ 31)%Z ->
  read_ids sys e cap stale (get_int e (put_int e 4 (Z.of_nat (idw * N)))) N
     (flat_map (fun p => put_int e idw (p_id p)) (map snd (typed parts)) ++ s)
  = Some (map (fun tp => p_id (snd tp)) (typed parts), s).
Proof.
  intros HN Hw Hs. rewrite get_put_int.
  2:{ unfold int_range. change (256 ^ Z.of_nat 4)%Z with 4294967296%Z. change (2 ^ 31)%Z with 2147483648%Z in Hs. lia. }
  unfold read_ids. rewrite (proj2 (Nat.eqb_neq _ _)) by exact HN.
  rewrite Nat2Z.inj_mul, Z.quot_mul by lia.
  set (vs := map (fun tp => p_id (snd tp)) (typed parts)).
  assert (length vs = N) as Hl by (unfold vs; now rewrite map_length).
  assert (Forall (fits idw) vs) as Hf.
  { unfold vs. apply Forall_forall. intros v Hv. apply in_map_iff in Hv as (tp & <- & Htp). apply (gp_id _ _ (good_typed tp Htp)). }
  assert (flat_map (fun p => put_int e idw (p_id p)) (map snd (typed parts)) = flat_map (put e idw) (map (unsign idw) vs)) as ->.
  { unfold vs. rewrite !flat_map_map. apply flat_map_ext. intros a. reflexivity. }
  destruct Hw as [-> | ->].
  - change (Z.of_nat 8 =? 8)%Z with true. cbv iota.
    rewrite <- Hl, <- (map_length (unsign 8) vs), read_int64_spec; [|rewrite Hstale; reflexivity|rewrite Hstale, map_length; lia].
    rewrite map_length, mem_ints_put by exact Hf. reflexivity.
  - change (Z.of_nat 4 =? 8)%Z with false. change (Z.of_nat 4 =? 4)%Z with true. cbv iota.
    rewrite <- Hl, <- (map_length (unsign 4) vs), read_int32_spec; [|apply repeat_length|rewrite repeat_length, map_length; lia].
    rewrite map_length, mem_ints_put by exact Hf. reflexivity.
Qed.

Lemma is_multi_listed t : is_multi_mass c t = negb (listed (c_single c) t).
Proof. unfold is_multi_mass. now rewrite listed_spec. Qed.

Lemma is_dm_listed t : is_dm c t = listed (c_dm c) t.
Proof. apply listed_spec. Qed.

Definition raw_mass (tp : nat * particle) : Z :=
  if listed (c_single c) (fst tp) then f32_of_64 F (nth (6 + fst tp) h 0%Z) else p_m (snd tp).

Lemma map_cat {A B} (g : A -> B) (b : nat -> list A) f k : map g (cat b f k) = cat (fun t => map g (b t)) f k.
Proof. symmetry. apply cat_map. Qed.

Lemma pack_typed {A} (g : nat * particle -> A) : exists buf, pack h c (map g (typed parts)) = Some buf /\
  slice_of buf 0 (dm_count h c) = Some (map g (dm_particles c parts)).
Proof.
  destruct (@pack_spec A h (fun t => map g (tblk parts t))) with (c := c) (post := @nil A) as (buf & Hp & Hs).
  { intros t Ht. rewrite map_length. now apply npart_tblk. }
  rewrite app_nil_r in Hp. exists buf. rewrite typed_cat, map_cat. split; [exact Hp|]. rewrite Hs. f_equal.
  unfold dm_particles. rewrite typed_cat, filter_cat, map_cat. apply cat_fext. intros; apply is_dm_listed.
Qed.

Lemma multi_masses s : let multi := map snd (filter (fun tp => negb (listed (c_single c) (fst tp))) (typed parts)) in
  exists mem, read_float32_as_byte sys e cap (multi_count h c) (stale (4 * multi_count h c))
      (flat_map (fun p => put e 4 (p_m p)) multi ++ s) = Some (false, mem, s)
   /\ mem_words sys 4 (multi_count h c) mem = cat (fun t => map (fun tp => p_m (snd tp)) (tblk parts t)) (is_multi_mass c) 6.
Proof.
  intros multi.
  set (ws := map (fun tp => p_m (snd tp)) (filter (fun tp => negb (listed (c_single c) (fst tp))) (typed parts))).
  assert (ws = cat (fun t => map (fun tp => p_m (snd tp)) (tblk parts t)) (is_multi_mass c) 6) as Hws.
  { unfold ws. rewrite typed_cat, (filter_cat parts (fun t => negb (listed (c_single c) t))), map_cat.
    apply cat_fext. intros; now rewrite is_multi_listed. }
  assert (length ws = multi_count h c) as Hl.
  { rewrite Hws. unfold multi_count. rewrite count_psum. apply cat_length; [|lia].
    intros t Ht. rewrite map_length. now apply npart_tblk. }
  assert (Forall (word 4) ws) as Hw.
  { unfold ws. apply Forall_forall. intros v Hv. apply in_map_iff in Hv as (tp & <- & Htp).
    apply filter_In in Htp as [Htp _]. apply (gp_m _ _ (good_typed tp Htp)). }
  exists (flat_map (put sys 4) ws). rewrite <- Hws, <- Hl. split.
  - unfold multi. rewrite flat_map_map.
    replace (flat_map (fun a : nat * particle => put e 4 (p_m (snd a))) _) with (flat_map (put e 4) ws)
      by (unfold ws; now rewrite flat_map_map).
    apply read_float32_spec; [apply Hstale|]. rewrite Hstale. unfold multi_count in Hl. rewrite count_psum in Hl.
    pose proof (psum_le h (is_multi_mass c) 6). rewrite <- N_psum in *. lia.
  - apply mem_words_put; exact Hw.
Qed.

Lemma out_mass_typed t : t < 6 ->
  out_mass F h c (fun t => map (fun tp => p_m (snd tp)) (tblk parts t)) t = map raw_mass (tblk parts t).
Proof.
  intros _. unfold out_mass. rewrite is_multi_listed, map_length. unfold tblk, raw_mass. rewrite !map_map, map_length.
  destruct (listed (c_single c) t) eqn:E; cbn [negb].
  - induction (nth t parts []) as [|p l IH]; [reflexivity|]. cbn [length repeat map]. rewrite IH. f_equal. cbn [fst]. rewrite E. reflexivity.
  - apply map_ext. intros p. cbn [fst snd]. rewrite E. reflexivity.
Qed.

Lemma map_opt_map {A B C} (f : B -> option C) (g : A -> B) l : map_opt f (map g l) = map_opt (fun a => f (g a)) l.
Proof. induction l; [reflexivity|]. cbn [map map_opt]. now rewrite IHl. Qed.

(** The part of the file before the mass block, and what the reader does after it. *)
Definition front : list Z :=
  let all := map snd (typed parts) in
  frecord e (put_words e header_layout h)
  ++ frecord e (flat_map (fun p => flat_map (put e 4) (p_x p)) all)
  ++ frecord e (flat_map (fun p => flat_map (put e 4) (p_v p)) all)
  ++ frecord e (flat_map (fun p => put_int e idw (p_id p)) all).

Definition after_ids (s : list Z) : option (option (list (list Z) * list (list Z) * list Z * list Z)) :=
  do r <- read_i32 e s; let '(_, s) := r in
  do r <- read_float32_as_byte sys e cap (multi_count h c) (stale (4 * multi_count h c)%nat) s; let '(_, mmem, s) := r in
  do r <- read_i32 e s; let '(_, s) := r in
  do ms <- unpack_mass F h c (mem_words sys 4 (multi_count h c) mmem) (mem_words sys 4 N (stale (4 * N)%nat));
  do xs <- pack h c (map (fun tp => p_x (snd tp)) (typed parts));
  do vs <- pack h c (map (fun tp => p_v (snd tp)) (typed parts));
  do ids <- pack h c (map (fun tp => p_id (snd tp)) (typed parts));
  do ms <- pack h c ms;
  do xs <- slice_of xs 0 (dm_count h c);
  do vs <- slice_of vs 0 (dm_count h c);
  do ids <- slice_of ids 0 (dm_count h c);
  do ms <- slice_of ms 0 (dm_count h c);
  Some (do r <- fix_all F h c xs vs ms; let '(xs, vs, ms) := r in Some (xs, vs, ms, ids)).

Lemma read_front tail : N <> 0 -> (idw = 8 \/ idw = 4) -> (Z.of_nat (idw * N) < 2 ^ 31)%Z ->
  read_gadget2 F sys e cap stale c (front ++ tail) = after_ids tail.
Proof.
  intros HN Hw Hs. unfold read_gadget2, front. cbv zeta. unfold frecord. rewrite <- !app_assoc.
  assert (forall v s, read_i32 e (put_int e 4 v ++ s) = Some (get_int e (put_int e 4 v), s)) as Hi'.
  { intros v s. destruct (read_i32_app e v s) as (w & E & ->). exact E. }
  rewrite Hi'. rewrite read_header_app by apply (gs_words _ _ _ Hgood). rewrite Hi'.
  unfold particle_count. rewrite count_psum. rewrite <- N_psum. rewrite Hi'.
  match goal with |- context [read_vec_as_byte sys e cap N (stale (12 * N)) (flat_map (fun p => flat_map (put e 4) (p_x p)) (map snd (typed parts)) ++ ?s)] =>
    destruct (read_vecs p_x s) as (xmem & -> & Hx)
  end.
  { intros tp Htp. split; [apply (gp_x3 _ _ (good_typed tp Htp))|apply (gp_x _ _ (good_typed tp Htp))]. }
  rewrite !Hi'.
  match goal with |- context [read_vec_as_byte sys e cap N (stale (12 * N)) (_ ++ ?s)] =>
    destruct (read_vecs p_v s) as (vmem & -> & Hv)
  end.
  { intros tp Htp. split; [apply (gp_v3 _ _ (good_typed tp Htp))|apply (gp_v _ _ (good_typed tp Htp))]. }
  rewrite Hi'.
  assert (length (flat_map (fun p => put_int e idw (p_id p)) (map snd (typed parts))) = idw * N) as Hlen.
  { rewrite (flat_map_length _ idw) by (intros; apply put_int_length). now rewrite map_length. }
  rewrite Hlen. rewrite Hi', read_ids_spec by assumption. rewrite Hi'. rewrite Hx, Hv. reflexivity.
Qed.

Lemma read_gadget2_spec rest : N <> 0 -> (idw = 8 \/ idw = 4) -> (Z.of_nat (idw * N) < 2 ^ 31)%Z ->
  read_gadget2 F sys e cap stale c (gadget_file e idw h c parts ++ rest) =
  Some (let dm := dm_particles c parts in
        do X <- map_opt (map_opt (coord_of F h c)) (map (fun tp => p_x (snd tp)) dm);
        Some (X, map (velocity_of F h) dm, map (mass_of F h c) dm, map (fun tp => p_id (snd tp)) dm)).
Proof.
  intros HN Hw Hs.
  replace (gadget_file e idw h c parts ++ rest) with
    (front ++ frecord e (flat_map (fun p => put e 4 (p_m p)) (map snd (filter (fun tp => negb (listed (c_single c) (fst tp))) (typed parts)))) ++ rest)
    by (unfold gadget_file, front; cbv zeta; rewrite <- !app_assoc; reflexivity).
  rewrite read_front by assumption. unfold after_ids, frecord. rewrite <- !app_assoc. cbv zeta.
  assert (forall v s, read_i32 e (put_int e 4 v ++ s) = Some (get_int e (put_int e 4 v), s)) as Hi'.
  { intros v s. destruct (read_i32_app e v s) as (w & E & ->). exact E. }
  rewrite Hi'.
  match goal with |- context [read_float32_as_byte sys e cap _ _ (_ ++ ?s)] =>
    destruct (multi_masses s) as (mmem & Hm1 & Hm2)
  end.
  rewrite Hm1, Hi', Hm2. clear Hm1 Hm2.
  rewrite unpack_mass_spec.
  2:{ intros t Ht. rewrite map_length. now apply npart_tblk. }
  2:{ unfold mem_words. rewrite map_length, chunks_length. unfold particle_count. rewrite count_psum. apply N_psum. }
  rewrite (cat_ext _ (fun t => map raw_mass (tblk parts t))) by (intros; now apply out_mass_typed).
  rewrite cat_map, <- typed_cat.
  destruct (pack_typed (fun tp => p_x (snd tp))) as (xb & -> & Hxb).
  destruct (pack_typed (fun tp => p_v (snd tp))) as (vb & -> & Hvb).
  destruct (pack_typed (fun tp => p_id (snd tp))) as (ib & -> & Hib).
  destruct (pack_typed raw_mass) as (mb & -> & Hmb).
  rewrite Hxb, Hvb, Hib, Hmb. f_equal. unfold fix_all. cbv zeta.
  assert (Ecoord : fix_coord F (f32_of_64 F (gh_boxsize h)) (f32_of_64 F (c_pos_units c)) = coord_of F h c) by reflexivity. rewrite Ecoord.
  destruct (map_opt _ _); [|reflexivity]. rewrite !map_map. reflexivity.
Qed.

(** Real Gadget-2 files have no mass block when every type has one mass. *)
Lemma no_mass_block : N <> 0 -> (idw = 8 \/ idw = 4) -> (Z.of_nat (idw * N) < 2 ^ 31)%Z ->
  read_gadget2 F sys e cap stale c front = None.
Proof. intros. rewrite <- (app_nil_r front). rewrite read_front by assumption. reflexivity. Qed.

(** A file with no particles. *)
Lemma no_particles rest : N = 0 ->
  read_gadget2 F sys e cap stale c (gadget_file e idw h c parts ++ rest) = None.
Proof.
  intros HN. unfold read_gadget2, gadget_file. cbv zeta. unfold frecord. rewrite <- !app_assoc.
  assert (forall v s, read_i32 e (put_int e 4 v ++ s) = Some (get_int e (put_int e 4 v), s)) as Hi'.
  { intros v s. destruct (read_i32_app e v s) as (w & E & ->). exact E. }
  rewrite Hi'. rewrite read_header_app by apply (gs_words _ _ _ Hgood). rewrite Hi'.
  unfold particle_count. rewrite count_psum. rewrite <- N_psum. rewrite Hi'.
  match goal with |- context [read_vec_as_byte sys e cap N (stale (12 * N)) (flat_map (fun p => flat_map (put e 4) (p_x p)) (map snd (typed parts)) ++ ?s)] =>
    destruct (read_vecs p_x s) as (xmem & -> & Hx)
  end.
  { intros tp Htp. split; [apply (gp_x3 _ _ (good_typed tp Htp))|apply (gp_x _ _ (good_typed tp Htp))]. }
  rewrite !Hi'.
  match goal with |- context [read_vec_as_byte sys e cap N (stale (12 * N)) (_ ++ ?s)] =>
    destruct (read_vecs p_v s) as (vmem & -> & Hv)
  end.
  { intros tp Htp. split; [apply (gp_v3 _ _ (good_typed tp Htp))|apply (gp_v _ _ (good_typed tp Htp))]. }
  rewrite !Hi'. rewrite HN. reflexivity.
Qed.

End Read.

Lemma large_ids sys e cap stale N size s : (2 ^ 31 <= Z.of_nat size < 2 ^ 32)%Z -> N <> 0 ->
  read_ids sys e cap stale (get_int e (put_int e 4 (Z.of_nat size))) N s
  = Some (mem_ints sys 8 N (stale (8 * N)), s).
Proof.
  intros Hz HN. unfold read_ids. rewrite (proj2 (Nat.eqb_neq _ _)) by exact HN.
  assert (get_int e (put_int e 4 (Z.of_nat size)) < 0)%Z as Hneg.
  { unfold get_int, put_int. rewrite put_length, get_put. unfold unsign, sign.
    rewrite Z.mod_mod by (cbn; lia). change (256 ^ Z.of_nat 4)%Z with 4294967296%Z.
    change (2 ^ 31)%Z with 2147483648%Z in Hz. change (2 ^ 32)%Z with 4294967296%Z in Hz.
    rewrite Z.mod_small by lia. rewrite (proj2 (Z.ltb_ge _ _)) by lia. lia. }
  set (g := get_int e (put_int e 4 (Z.of_nat size))) in *.
  assert (Z.quot g (Z.of_nat N) <= 0)%Z as Hq.
  { rewrite <- (Z.opp_involutive g). rewrite Z.quot_opp_l by lia. pose proof (Z.quot_pos (- g) (Z.of_nat N)). lia. }
  rewrite (proj2 (Z.eqb_neq _ _)) by lia. rewrite (proj2 (Z.eqb_neq _ _)) by lia. reflexivity.
Qed.

(** ** Headers *)
Fixpoint swapped_words (e : order) (sizes : list nat) (h : list Z) : list Z :=
  match sizes, h with
  | n :: sizes', w :: h' => get LE (put e n w) :: swapped_words e sizes' h'
  | _, _ => []
  end.

Lemma decode_swapped e sizes h : Forall2 word sizes h -> decode_words LE sizes (put_words e sizes h) = swapped_words e sizes h.
Proof.
  induction 1 as [|n w sizes h Hw _ IH]; cbn [put_words decode_words swapped_words]; [reflexivity|].
  rewrite firstn_app, skipn_app, put_length, Nat.sub_diag. cbn [firstn skipn].
  rewrite firstn_all2, skipn_all2 by (rewrite put_length; lia). rewrite app_nil_r. cbn [app].
  now rewrite IH.
Qed.

Lemma swapped_le sizes h : Forall2 word sizes h -> swapped_words LE sizes h = h.
Proof.
  induction 1 as [|n w sizes h Hw _ IH]; cbn [swapped_words]; [reflexivity|].
  rewrite IH, get_put_small by exact Hw. reflexivity.
Qed.

Lemma read_header_spec e idw h c parts rest : good_snapshot idw h parts ->
  read_gadget2_header e (gadget_file e idw h c parts ++ rest) = Some (swapped_words e header_layout h).
Proof.
  intros Hg. unfold read_gadget2_header, gadget_file. cbv zeta. unfold frecord at 1. rewrite <- !app_assoc.
  match goal with |- context [read_i32 e (put_int e 4 ?v ++ ?s)] => destruct (read_i32_app e v s) as (w & -> & _) end.
  rewrite read_full_app by (rewrite put_words_length by (symmetry; eapply Forall2_length; apply (gs_words _ _ _ Hg)); reflexivity).
  f_equal. apply decode_swapped. apply (gs_words _ _ _ Hg).
Qed.

(** ** Counts *)
Lemma listed_cons j l t : listed (j :: l) t = Z.eqb j (Z.of_nat t) || listed l t.
Proof. rewrite <- !listed_spec. reflexivity. Qed.

Lemma psum_cons h j l k : ~ In j l ->
  psum h (listed (j :: l)) k = psum h (listed l) k + (if ((0 <=? j) && (j <? Z.of_nat k))%Z then gh_npart h (Z.to_nat j) else 0).
Proof.
  intros Hj. induction k as [|k IH]; cbn [psum].
  - destruct (Z.leb_spec 0 j), (Z.ltb_spec j (Z.of_nat 0)); cbn [andb]; lia.
  - rewrite IH, listed_cons. destruct (Z.eqb_spec j (Z.of_nat k)) as [E|E]; cbn [orb].
    + subst j. assert (listed l k = false) as ->.
      { unfold listed. destruct (in_dec Z.eq_dec (Z.of_nat k) l); [contradiction|reflexivity]. }
      rewrite Nat2Z.id.
      rewrite (proj2 (Z.ltb_ge _ _)) by lia. rewrite (proj2 (Z.ltb_lt _ _)) by lia. rewrite (proj2 (Z.leb_le _ _)) by lia. cbn [andb]. lia.
    + destruct (Z.leb_spec 0 j), (Z.ltb_spec j (Z.of_nat k)), (Z.ltb_spec j (Z.of_nat (S k))); cbn [andb]; try lia;
      destruct (listed l k); lia.
Qed.

Definition count_step (h : list Z) (n : option Z) (j : Z) : option Z :=
  do n' <- n; if ((0 <=? j) && (j <? 6))%Z then Some (n' + nth (Z.to_nat j) h 0)%Z else None.

Lemma count_step_fold h l a : Forall (fun j => 0 <= j < 6)%Z l -> NoDup l ->
  (forall t, t < 6 -> (0 <= nth t h 0)%Z) ->
  fold_left (count_step h) l (Some a) = Some (a + Z.of_nat (psum h (listed l) 6))%Z.
Proof.
  intros Hl Hd Hh. revert a. induction l as [|j l IH]; intros a.
  - cbn [fold_left]. f_equal. assert (psum h (listed []) 6 = 0) as -> by reflexivity. lia.
  - inversion Hl; subst. inversion Hd; subst.
    assert ((0 <=? j) && (j <? 6) = true)%Z as Ej by (apply andb_true_iff; split; [apply Z.leb_le|apply Z.ltb_lt]; lia).
    cbn [fold_left]. unfold count_step at 2. rewrite Ej.
    rewrite IH by assumption. f_equal. rewrite psum_cons by assumption.
    change (Z.of_nat 6) with 6%Z. rewrite Ej. unfold gh_npart.
    rewrite Nat2Z.inj_add, Z2Nat.id by (apply Hh; lia). lia.
Qed.

Lemma header_n_spec idw h c parts : good_snapshot idw h parts ->
  Forall (fun j => 0 <= j < 6)%Z (c_dm c) -> NoDup (c_dm c) ->
  header_n h c = Some (Z.of_nat (length (dm_particles c parts))).
Proof.
  intros Hg Hr Hd. unfold header_n.
  transitivity (fold_left (count_step h) (c_dm c) (Some 0%Z)); [reflexivity|].
  rewrite count_step_fold by (try assumption; intros t Ht; rewrite (gs_counts _ _ _ Hg t Ht); lia).
  f_equal. unfold dm_particles. rewrite typed_cat, filter_cat.
  rewrite (cat_length h); [lia| |lia]. intros t Ht. now apply (npart_tblk idw).
Qed.
