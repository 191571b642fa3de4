(** * Reading Bolshoi and BolshoiP files. *)
From Coq Require Import ZArith Reals List Lia Bool.
From Verif Require Export BolshoiSpec LoopFacts ListFacts BytesFacts OrderProofs GadgetProofs GadgetProofs2.
Import List ListNotations.
Local Open Scope nat_scope.

Lemma wr_split {A} (l : list A) i v : i < length l -> wr l i v = Some (firstn i l ++ v :: skipn (S i) l).
Proof.
  revert i. induction l as [|a l IH]; intros i Hi; [cbn in Hi; lia|]. destruct i as [|i]; [reflexivity|].
  unfold wr in *. cbn [upd]. rewrite IH by (cbn in Hi; lia). reflexivity.
Qed.

Lemma ir4 v : (0 <= v < 2 ^ 31)%Z -> int_range 4 v.
Proof. intros H. unfold int_range. change (256 ^ Z.of_nat 4)%Z with 4294967296%Z. change (2 ^ 31)%Z with 2147483648%Z in H. lia. Qed.

Lemma fortran_read_ok e n bs s : length bs = n -> (Z.of_nat n < 2 ^ 31)%Z -> fortran_read e n (frecord e bs ++ s) = Some (bs, s).
Proof.
  intros Hl Hn. unfold fortran_read, frecord. rewrite <- !app_assoc.
  match goal with |- context [read_i32 e (put_int e 4 ?v ++ ?s)] => destruct (read_i32_app e v s) as (w & -> & ->) end.
  assert (int_range 4 (Z.of_nat (length bs))) as Hr by (apply ir4; lia).
  rewrite get_put_int by exact Hr. rewrite Hl, Z.eqb_refl, <- Hl, read_full_app by reflexivity.
  match goal with |- context [read_i32 e (put_int e 4 ?v ++ ?s)] => destruct (read_i32_app e v s) as (w & -> & ->) end.
  rewrite get_put_int by exact Hr. now rewrite Z.eqb_refl.
Qed.

Lemma put_words_sum e sizes h : Forall2 word sizes h -> length (put_words e sizes h) = list_sum sizes.
Proof. intros H. rewrite put_words_length by (symmetry; eapply Forall2_length; exact H). reflexivity. Qed.

Lemma bol_head_ok p e comment h1 h2 bnd n s : length comment = 45 -> Forall2 word (bh1_layout p) h1 -> Forall2 word (bh2_layout p) h2 ->
  Forall2 word (repeat 4 6) bnd -> (Z.of_nat n < 2 ^ 31)%Z ->
  bol_head p e (bol_start p e comment h1 h2 bnd n ++ s) = Some (h1, h2, Z.of_nat n, s).
Proof.
  intros Hc H1 H2 Hb Hn. unfold bol_head, bol_start. rewrite <- !app_assoc.
  rewrite fortran_read_ok by (try exact Hc; cbn; lia).
  rewrite fortran_read_ok by (try (apply put_words_sum; assumption); destruct p; cbn; lia).
  rewrite fortran_read_ok by (try (apply put_words_sum; assumption); destruct p; cbn; lia).
  rewrite fortran_read_ok by (try (rewrite put_words_sum by assumption; reflexivity); cbn; lia).
  rewrite fortran_read_ok by (try apply put_int_length; cbn; lia).
  rewrite !decode_put_words by assumption. rewrite get_put_int by (apply ir4; lia). reflexivity.
Qed.

Lemma sign4 v : (0 <= v < 2 ^ 31)%Z -> sign 4 v = v.
Proof. intros H. unfold sign. destruct (Z.ltb_spec (2 * v) (256 ^ Z.of_nat 4)); [reflexivity|]. change (256 ^ Z.of_nat 4)%Z with 4294967296%Z in *. change (2 ^ 31)%Z with 2147483648%Z in H. lia. Qed.
Lemma wrap32_ok v : (0 <= v < 2 ^ 31)%Z -> wrap32 v = v.
Proof. intros H. unfold wrap32. apply sign_unsign. apply ir4; lia. Qed.

Lemma cell_split Nx Ny Nz K : (0 < Nx)%Z -> (0 < Ny)%Z -> (0 < Nz)%Z -> (1 <= K <= Nx * Ny * Nz)%Z ->
  exists ix iy iz, K = cell_number Nx Ny ix iy iz /\ (0 <= ix < Nx)%Z /\ (0 <= iy < Ny)%Z /\ (0 <= iz < Nz)%Z.
Proof.
  intros Hx Hy Hz HK. exists ((K - 1) mod Nx)%Z, (((K - 1) / Nx) mod Ny)%Z, ((K - 1) / Nx / Ny)%Z. unfold cell_number.
  pose proof (Z.div_mod (K - 1) Nx ltac:(lia)). pose proof (Z.div_mod ((K - 1) / Nx) Ny ltac:(lia)).
  split; [|split; [|split]].
  - nia.
  - apply Z.mod_pos_bound; lia.
  - apply Z.mod_pos_bound; lia.
  - split; [apply Z.div_pos; [apply Z.div_pos; lia|lia]|]. apply Z.div_lt_upper_bound; [lia|]. apply Z.div_lt_upper_bound; [lia|]. nia.
Qed.

Lemma cell_number_inv Nx Ny ix iy iz : (0 <= ix < Nx)%Z -> (0 <= iy < Ny)%Z -> (0 <= iz)%Z ->
  ((cell_number Nx Ny ix iy iz - 1) mod Nx = ix /\ ((cell_number Nx Ny ix iy iz - 1) / Nx) mod Ny = iy /\
   (cell_number Nx Ny ix iy iz - 1) / (Nx * Ny) = iz)%Z.
Proof.
  intros Hx Hy Hz. unfold cell_number. replace (1 + ix + Nx * (iy + Ny * iz) - 1)%Z with (ix + (iy + Ny * iz) * Nx)%Z by lia.
  rewrite Z.mod_add, Z.div_add by lia. rewrite Z.mod_small, (Z.div_small ix) by lia. rewrite Z.add_0_l.
  rewrite <- Z.div_div by lia. rewrite Z.div_add, (Z.div_small ix), Z.add_0_l by lia.
  replace (iy + Ny * iz)%Z with (iy + iz * Ny)%Z by lia. rewrite Z.mod_add, Z.div_add, Z.mod_small, Z.div_small by lia. lia.
Qed.

Lemma bol_bhead_ok F h1 h2 n Nx Ny Nz ix iy iz :
  nth 0 h2 0%Z = cell_number Nx Ny ix iy iz -> nth 1 h2 0%Z = Nx -> nth 2 h2 0%Z = Ny -> nth 3 h2 0%Z = Nz ->
  (0 <= ix < Nx)%Z -> (0 <= iy < Ny)%Z -> (0 <= iz < Nz)%Z -> (Nx * Ny * Nz < 2 ^ 31)%Z ->
  let W := nth 10 h1 0%Z in
  bol_bhead F h1 h2 n = Some {| bd_n := n; bd_total := W; bd_a := nth 0 h1 0%Z;
    bd_origin := [lower F W Nx ix; lower F W Ny iy; lower F W Nz iz];
    bd_width := [b_div F W (b_int F Nx); b_div F W (b_int F Ny); b_div F W (b_int F Nz)] |}.
Proof.
  intros HK H1 H2 H3 Hx Hy Hz Hs W.
  assert (B : (Nx * Ny <= Nx * Ny * Nz /\ Nx <= Nx * Ny /\ Ny <= Nx * Ny /\ Nz <= Nx * Ny * Nz)%Z).
  { assert (1 <= Nx * Ny)%Z by nia. repeat split; nia. }
  assert (HK1 : (1 <= cell_number Nx Ny ix iy iz <= Nx * Ny * Nz)%Z).
  { unfold cell_number. split; [nia|]. assert (iy + Ny * iz + 1 <= Ny * Nz)%Z by nia. nia. }
  unfold bol_bhead. rewrite HK, H1, H2, H3. rewrite !sign4 by lia.
  rewrite !(wrap32_ok (Nx * Ny)), !(wrap32_ok (cell_number Nx Ny ix iy iz - 1)) by lia.
  destruct (cell_number_inv Nx Ny ix iy iz Hx Hy (proj1 Hz)) as (E1 & E2 & E3).
  unfold rem32, div32. rewrite !(proj2 (Z.eqb_neq _ 0)) by nia.
  rewrite Z.rem_mod_nonneg, E1 by lia. rewrite !Z.quot_div_nonneg by lia.
  assert (Q : (0 <= (cell_number Nx Ny ix iy iz - 1) / Nx < 2 ^ 31)%Z).
  { split; [apply Z.div_pos; lia|]. apply Z.div_lt_upper_bound; [lia|]. assert (2 ^ 31 <= Nx * 2 ^ 31)%Z by nia. lia. }
  rewrite (wrap32_ok ((cell_number Nx Ny ix iy iz - 1) / Nx)) by exact Q. rewrite Z.rem_mod_nonneg, E2 by lia.
  rewrite E3, wrap32_ok by (cbn in *; nia). reflexivity.
Qed.

Lemma bol_in_range_ok F x Wd Nx Ny Nz ix iy iz n a W :
  bol_in_range F x {| bd_n := n; bd_total := W; bd_a := a; bd_origin := [lower F Wd Nx ix; lower F Wd Ny iy; lower F Wd Nz iz];
    bd_width := [b_div F Wd (b_int F Nx); b_div F Wd (b_int F Ny); b_div F Wd (b_int F Nz)] |} = in_cell F Wd Nx Ny Nz ix iy iz x.
Proof.
  unfold bol_in_range, in_cell, in_slab, upper. cbn [bd_origin bd_width nth].
  set (a0 := b_lt F _ (nth 0 x 0%Z)). set (a1 := b_lt F _ (nth 1 x 0%Z)). set (a2 := b_lt F _ (nth 2 x 0%Z)).
  set (c0 := b_le F (nth 0 x 0%Z) _). set (c1 := b_le F (nth 1 x 0%Z) _). set (c2 := b_le F (nth 2 x 0%Z) _).
  destruct a0, a1, a2, c0, c1, c2; reflexivity.
Qed.

(** A slice of a buffer. *)
Lemma read_part_ok reader w pre buf post out lo m s s' : length pre = w * lo -> length buf = w * m ->
  reader m buf s = Some (false, out, s') ->
  read_part reader w (pre ++ buf ++ post) lo (Z.of_nat m) s = Some (pre ++ out ++ post, s').
Proof.
  intros Hp Hb Hr. unfold read_part. rewrite (proj2 (Z.ltb_ge _ _)) by lia. rewrite Nat2Z.id.
  rewrite Nat.mul_add_distr_l, <- Hp, !app_length. rewrite (proj2 (Nat.leb_le _ _)) by lia.
  rewrite skipn_app, skipn_all, Nat.sub_diag. cbn [skipn app].
  rewrite firstn_app, <- Hb, firstn_all, Nat.sub_diag. cbn [firstn]. rewrite app_nil_r, Hr.
  rewrite firstn_app, firstn_all, Nat.sub_diag. cbn [firstn]. rewrite app_nil_r.
  rewrite skipn_app, skipn_all2 by lia. replace (length pre + length buf - length pre) with (length buf) by lia.
  rewrite skipn_app, skipn_all, Nat.sub_diag. reflexivity.
Qed.

(** ** Bolshoi *)
Definition bytes_of (p : particle) : list Z * Z := (p_x p ++ p_v p, unsign 8 (p_id p)).
Definition pbytes (e : order) (g : list particle) : list Z := flat_map (fun p => put_bolshoi e (bytes_of p)) g.

Lemma pbytes_file e g : flat_map (fun p => flat_map (put e 4) (p_x p) ++ flat_map (put e 4) (p_v p) ++ put_int e 8 (p_id p)) g = pbytes e g.
Proof.
  unfold pbytes. rewrite !flat_map_concat_map. f_equal. apply map_ext. intros p. unfold put_bolshoi, bytes_of. cbn [fst snd]. rewrite flat_map_app, <- app_assoc. reflexivity.
Qed.
Lemma pbytes_len1 e p : good_particle 8 p -> length (put_bolshoi e (bytes_of p)) = 32.
Proof. intros [H1 _ H2 _ _ _]. apply put_bolshoi_length. cbn [bytes_of fst]. rewrite app_length. lia. Qed.
Lemma pbytes_length e g : Forall (good_particle 8) g -> length (pbytes e g) = 32 * length g.
Proof. intros H. apply flat_map_length_in. intros p Hp. apply pbytes_len1. exact (proj1 (Forall_forall _ _) H p Hp). Qed.

Lemma read_group sys e cap g buf s : Forall (good_particle 8) g -> length buf = 32 * length g -> length buf <= cap ->
  read_bolshoi_as_byte sys e cap (length g) buf (pbytes e g ++ s) = Some (false, pbytes sys g, s).
Proof.
  intros Hg Hb Hc. unfold pbytes. rewrite <- !(flat_map_map _ bytes_of). rewrite <- (map_length bytes_of g). apply read_bolshoi_spec.
  - apply Forall_forall. intros q Hq. apply in_map_iff in Hq as (p & <- & Hp). destruct (proj1 (Forall_forall _ _) Hg p Hp) as [H1 _ H2 _ _ _].
    cbn [bytes_of fst]. rewrite app_length. lia.
  - now rewrite map_length.
  - exact Hc.
Qed.

Lemma bol_groups_ok sys e cap rest groups : forall fuel done mem, Forall (Forall (good_particle 8)) groups -> Forall (good_particle 8) done ->
  length mem = 32 * length (concat groups) -> length mem <= cap -> (Z.of_nat (length (concat groups)) < 2 ^ 31)%Z -> length groups < fuel ->
  exists tail r, bol_groups fuel sys e cap (Z.of_nat (length done + length (concat groups))) (length done) (pbytes sys done ++ mem)
    (flat_map (fun g => frecord e (put_int e 4 (Z.of_nat (length g))) ++ frecord e (pbytes e g)) groups ++ rest) = Some (pbytes sys (done ++ concat groups) ++ tail, r) /\ tail = [] /\ (Forall (fun g => g <> []) groups -> r = rest).
Proof.
  induction groups as [|g groups IH]; intros fuel done mem Hg Hd Hm Hc Hn Hf.
  - destruct fuel as [|fuel]; [lia|]. cbn [bol_groups concat length]. rewrite Nat.add_0_r, (proj2 (Z.ltb_ge _ _)) by lia.
    cbn in Hm. destruct mem; [|cbn in Hm; lia]. exists [], rest. split; [|auto]. rewrite !app_nil_r. reflexivity.
  - destruct fuel as [|fuel]; [cbn in Hf; lia|]. inversion Hg as [|? ? Hg1 Hg2]; subst. cbn [concat] in *. rewrite app_length in *. cbn [bol_groups].
    destruct (Z.ltb_spec (Z.of_nat (length done)) (Z.of_nat (length done + (length g + length (concat groups))))) as [L|L].
    + cbn [flat_map]. rewrite <- !app_assoc. rewrite fortran_read_ok by (try apply put_int_length; cbn; lia).
      rewrite get_put_int by (apply ir4; lia). unfold frecord at 1. rewrite <- !app_assoc.
      match goal with |- context [read_i32 e (put_int e 4 ?v ++ ?s)] => destruct (read_i32_app e v s) as (w & -> & _) end.
      set (buf := firstn (32 * length g) mem). set (post := skipn (32 * length g) mem).
      assert (Hb : length buf = 32 * length g) by (unfold buf; rewrite firstn_length; lia).
      replace (pbytes sys done ++ mem) with (pbytes sys done ++ buf ++ post) by (unfold buf, post; now rewrite firstn_skipn).
      assert (Hpl : length (pbytes sys done) = 32 * length done) by (apply pbytes_length; exact Hd).
      rewrite (read_part_ok _ 32 (pbytes sys done) buf post (pbytes sys g) (length done) (length g) _ _ Hpl Hb
         (read_group sys e cap g buf _ Hg1 Hb ltac:(lia))).
      match goal with |- context [read_i32 e (put_int e 4 ?v ++ ?s)] => destruct (read_i32_app e v s) as (w' & -> & _) end.
      rewrite Nat2Z.id.
      assert (E : pbytes sys done ++ pbytes sys g ++ post = pbytes sys (done ++ g) ++ post) by (unfold pbytes; now rewrite flat_map_app, <- app_assoc).
      rewrite E. rewrite <- (app_length done g).
      destruct (IH fuel (done ++ g) post) as (tail & r & Ht & Hz & Hr).
      * exact Hg2.
      * apply Forall_app. split; assumption.
      * unfold post. rewrite skipn_length. lia.
      * unfold post. rewrite skipn_length. lia.
      * lia.
      * cbn in Hf. lia.
      * exists tail, r. split; [|split; [exact Hz|intros Hne; inversion Hne; auto]]. replace (length done + (length g + length (concat groups))) with (length (done ++ g) + length (concat groups)) by (rewrite app_length; lia).
        rewrite (app_assoc done g). exact Ht.
    + assert (length g = 0 /\ length (concat groups) = 0) as (G1 & G2) by lia. destruct g; [|cbn in G1; lia]. destruct (concat groups) as [|? ?]; [|cbn in G2; lia].
      cbn in Hm. destruct mem; [|cbn in Hm; lia]. eexists [], _. split; [|split; [reflexivity|]].
      * cbn [app]. rewrite !app_nil_r. reflexivity.
      * intros Hne. inversion Hne. congruence.
Qed.

Definition as_particle (p : particle) : bparticle := (p_x p, p_v p, p_id p).

Lemma mem_particles_ok sys g : Forall (good_particle 8) g -> mem_particles sys (length g) (pbytes sys g) = map as_particle g.
Proof.
  intros Hg. unfold mem_particles, pbytes.
  rewrite (chunks_flat_map_in (fun p => put_bolshoi sys (bytes_of p)) 32 g) by (intros p Hp; apply pbytes_len1; exact (proj1 (Forall_forall _ _) Hg p Hp)).
  rewrite map_map. apply map_ext_in. intros p Hp. destruct (proj1 (Forall_forall _ _) Hg p Hp) as [X3 X V3 V M I].
  unfold mem_particle, put_bolshoi, bytes_of, as_particle. cbn [fst snd].
  assert (L : length (flat_map (put sys 4) (p_x p ++ p_v p)) = 24).
  { rewrite (flat_map_length _ 4) by (intros; apply put_length). rewrite app_length. lia. }
  rewrite firstn_app, L. replace (24 - 24) with 0 by lia. rewrite (firstn_all2 (flat_map (put sys 4) (p_x p ++ p_v p))) by lia. change (firstn 0 (put sys 8 (unsign 8 (p_id p)))) with (@nil Z). rewrite app_nil_r.
  assert (Hm : mem_words sys 4 6 (flat_map (put sys 4) (p_x p ++ p_v p)) = p_x p ++ p_v p).
  { assert (L6 : length (p_x p ++ p_v p) = 6) by (rewrite app_length; lia). rewrite <- L6. apply mem_words_put. apply Forall_app; split; assumption. }
  rewrite Hm.
  rewrite (skipn_app 24 (flat_map (put sys 4) (p_x p ++ p_v p))), (skipn_all2 (flat_map (put sys 4) (p_x p ++ p_v p))), L by lia. change (24 - 24) with 0. cbn [app]. change (skipn 0 (put sys 8 (unsign 8 (p_id p)))) with (put sys 8 (unsign 8 (p_id p))).
  change (get_int sys (put sys 8 (unsign 8 (p_id p)))) with (get_int sys (put_int sys 8 (p_id p))). rewrite get_put_int by exact I.
  clear -X3. rewrite <- X3, firstn_app, firstn_all, Nat.sub_diag. cbn [firstn]. rewrite app_nil_r.
  rewrite skipn_app, skipn_all, Nat.sub_diag. reflexivity.
Qed.

(** Compaction in place keeps exactly the good elements, in order. *)
Lemma compact {A} (f : A -> A) (ok : A -> bool) (p0 : list A) :
  exists p j, loop (length p0) (fun i (st : list A * nat) => let '(p, j) := st in
      do pp <- rd p i; if ok (f pp) then do p <- wr p j (f pp); Some (p, S j) else Some (p, j)) (p0, 0) = Some (p, j) /\
    firstn j p = filter ok (map f p0).
Proof.
  destruct (loop_inv (fun k (st : list A * nat) => let '(p, j) := st in length p = length p0 /\ j <= k /\ skipn k p = skipn k p0 /\ firstn j p = filter ok (map f (firstn k p0)))
    (length p0) (fun i (st : list A * nat) => let '(p, j) := st in
      do pp <- rd p i; if ok (f pp) then do p <- wr p j (f pp); Some (p, S j) else Some (p, j)) (p0, 0)) as ((p, j) & E & H).
  - cbn. auto.
  - intros k (p, j) Hk (Hl & Hj & Hs & Hf).
    assert (Hx : exists x, nth_error p0 k = Some x).
    { destruct (nth_error p0 k) eqn:E; [eauto|]. apply nth_error_None in E. lia. }
    destruct Hx as (x & Hx).
    assert (Hd : forall l : list A, nth_error l k = Some x -> skipn k l = x :: skipn (S k) l /\ firstn (S k) l = firstn k l ++ [x]).
    { clear. induction k as [|k IH]; intros l H; destruct l as [|a l]; try discriminate.
      - cbn in H. injection H as ->. split; reflexivity.
      - destruct (IH l H) as (I1 & I2). split; [exact I1|]. change (firstn (S (S k)) (a :: l)) with (a :: firstn (S k) l). rewrite I2. reflexivity. }
    destruct (Hd p0 Hx) as (D1 & D2).
    assert (Hpx : nth_error p k = Some x).
    { assert (nth_error (skipn k p) 0 = Some x) as G by (rewrite Hs, D1; reflexivity).
      rewrite <- (firstn_skipn k p), nth_error_app2 by (rewrite firstn_length; lia). rewrite firstn_length, Nat.min_l by lia. rewrite Nat.sub_diag. exact G. }
    destruct (Hd p Hpx) as (P1 & P2).
    assert (Hsk : skipn (S k) p = skipn (S k) p0) by (rewrite D1, P1 in Hs; now injection Hs).
    rewrite (rd_nth p k x) by lia. rewrite (nth_error_nth p k x Hpx).
    rewrite D2, map_app, filter_app. cbn [map filter]. destruct (ok (f x)) eqn:Eo.
    + rewrite wr_split by lia. eexists. split; [reflexivity|]. split; [|split; [|split]].
      * rewrite app_length, firstn_length. cbn [length]. rewrite skipn_length. lia.
      * lia.
      * rewrite <- Hsk. rewrite skipn_app, firstn_length, skipn_all2 by (rewrite firstn_length; lia). replace (S k - Nat.min j (length p)) with (S (k - j)) by lia.
        change (skipn (S (k - j)) (f x :: skipn (S j) p)) with (skipn (k - j) (skipn (S j) p)). rewrite skipn_skipn. cbn [app]. f_equal. lia.
      * rewrite <- Hf. rewrite firstn_app, firstn_length. replace (S j - Nat.min j (length p)) with 1 by lia.
        rewrite firstn_firstn. replace (Nat.min (S j) j) with j by lia. reflexivity.
    + eexists. split; [reflexivity|]. rewrite app_nil_r. auto.
  - exists p, j. split; [exact E|]. destruct H as (_ & _ & _ & H). now rewrite firstn_all in H.
Qed.

Lemma sum_len_frecord e bs : length (frecord e bs) = 8 + length bs.
Proof. unfold frecord. rewrite !app_length, !put_int_length. lia. Qed.

Lemma groups_fuel (block : list particle -> list Z) e groups rest start :
  length groups < S (length (start ++ flat_map (fun g => frecord e (put_int e 4 (Z.of_nat (length g))) ++ block g) groups ++ rest)).
Proof.
  rewrite !app_length. assert (length groups <= length (flat_map (fun g => frecord e (put_int e 4 (Z.of_nat (length g))) ++ block g) groups)); [|lia].
  induction groups as [|g groups IH]; [cbn; lia|]. cbn [flat_map length]. rewrite !app_length, sum_len_frecord. lia.
Qed.

Lemma bol_file_header F p e comment h1 h2 bnd K Nx Ny Nz groups ix iy iz s : bol_good p comment h1 h2 bnd K Nx Ny Nz groups ->
  K = cell_number Nx Ny ix iy iz -> (0 <= ix < Nx)%Z -> (0 <= iy < Ny)%Z -> (0 <= iz < Nz)%Z ->
  let W := nth 10 h1 0%Z in
  bol_read_header F p e (bol_start p e comment h1 h2 bnd (length (concat groups)) ++ s) =
  Some {| bd_n := Z.of_nat (length (concat groups)); bd_total := W; bd_a := nth 0 h1 0%Z;
    bd_origin := [lower F W Nx ix; lower F W Ny iy; lower F W Nz iz];
    bd_width := [b_div F W (b_int F Nx); b_div F W (b_int F Ny); b_div F W (b_int F Nz)] |}.
Proof.
  intros G HK Hx Hy Hz W. destruct G as [G1 G2 G3 G4 G5 G6 G7 G8 G9 G10 G11 G12 G13]. unfold bol_read_header. rewrite bol_head_ok by assumption.
  apply bol_bhead_ok; try assumption. congruence.
Qed.

Lemma h1_grid p h1 : Forall2 word (bh1_layout p) h1 -> (0 <= nth 4 h1 0 < 2 ^ 32)%Z.
Proof.
  intros H. unfold bh1_layout in H. destruct p; cbn [repeat] in H;
    do 4 (inversion H as [|? ? ? ? _ H']; subst; clear H; rename H' into H); inversion H as [|? ? ? ? Hw _]; subst; cbn [nth]; exact Hw.
Qed.

Lemma read_bolshoi_ok F sys e cap stale bw0 comment h1 h2 bnd K Nx Ny Nz groups rest ix iy iz :
  (forall n, length (stale n) = n) -> bol_good false comment h1 h2 bnd K Nx Ny Nz groups -> (nth 4 h1 0 < 2 ^ 31)%Z ->
  32 * length (concat groups) <= cap ->
  K = cell_number Nx Ny ix iy iz -> (0 <= ix < Nx)%Z -> (0 <= iy < Ny)%Z -> (0 <= iz < Nz)%Z ->
  let W := nth 10 h1 0%Z in
  let kept := filter (fun p => in_cell F W Nx Ny Nz ix iy iz (position_of F h1 p)) (concat groups) in
  read_bolshoi F sys e cap stale bw0 (bolshoi_file e comment h1 h2 bnd groups ++ rest) =
  Some (map (position_of F h1) kept, map (fun p => map (fun v => b_mul F v (b_scale F (nth 0 h1 0%Z))) (p_v p)) kept,
        repeat (b_minmass F bw0) (length kept), map p_id kept).
Proof.
  intros Hst G Hgrid Hcap HK Hx Hy Hz W kept.
  unfold read_bolshoi, bolshoi_file. rewrite <- app_assoc.
  rewrite (flat_map_ext _ (fun g => frecord e (put_int e 4 (Z.of_nat (length g))) ++ frecord e (pbytes e g))) by (intros g; now rewrite pbytes_file).
  set (file := bol_start _ _ _ _ _ _ _ ++ _).
  pose proof G as [G1 G2 G3 G4 G5 G6 G7 G8 G9 G10 G11 G12 G13].
  assert (Eh : bol_head false e file = Some (h1, h2, Z.of_nat (length (concat groups)), flat_map (fun g => frecord e (put_int e 4 (Z.of_nat (length g))) ++ frecord e (pbytes e g)) groups ++ rest))
    by (apply bol_head_ok; assumption).
  rewrite Eh. rewrite (proj2 (Z.ltb_ge _ _)) by lia. rewrite Nat2Z.id.
  destruct (bol_groups_ok sys e cap rest groups (S (length file)) [] (stale (32 * length (concat groups)))) as (tail & r & Eg & -> & _); auto.
  { rewrite Hst. lia. }
  { unfold file. apply (groups_fuel (fun g => frecord e (pbytes e g))). }
  cbn [length plus pbytes flat_map app] in Eg. change (flat_map (fun p => put_bolshoi sys (bytes_of p)) []) with (@nil Z) in Eg. cbn [app] in Eg. rewrite Eg.
  rewrite app_nil_r. unfold file. rewrite (bol_file_header F false e comment h1 h2 bnd K Nx Ny Nz groups ix iy iz _ G HK Hx Hy Hz).
  assert (Hall : Forall (good_particle 8) (concat groups)).
  { apply Forall_forall. intros p Hp. apply in_concat in Hp as (g & Hg & Hp). exact (proj1 (Forall_forall _ _) (proj1 (Forall_forall _ _) G13 g Hg) p Hp). }
  rewrite mem_particles_ok by exact Hall. unfold filter_bolshoi. rewrite sign4 by (pose proof (h1_grid false h1 G2); lia).
  fold W. set (unit := b_div F W (b_int F (nth 4 h1 0%Z))). set (hd := {| bd_n := _ |}).
  set (f := fun q : bparticle => (map (fun c => b_mul F (b_sub F c (b_one F)) unit) (fst (fst q)), snd (fst q), snd q)).
  destruct (compact f (fun q => bol_in_range F (fst (fst q)) hd) (map as_particle (concat groups))) as (p & j & El & Ep).
  rewrite (loop_ext _ _ (fun i (st : list bparticle * nat) => let '(p, j) := st in
      do pp <- rd p i; if bol_in_range F (fst (fst (f pp))) hd then do p <- wr p j (f pp); Some (p, S j) else Some (p, j))).
  2:{ intros i (q, k) _. destruct (rd q i) as [((x, v), id)|]; reflexivity. }
  rewrite El, Ep. rewrite map_map.
  assert (Ek : filter (fun q : bparticle => bol_in_range F (fst (fst q)) hd) (map (fun p => f (as_particle p)) (concat groups)) = map (fun p => f (as_particle p)) kept).
  { assert (Hin : forall a, bol_in_range F (fst (fst (f (as_particle a)))) hd = in_cell F W Nx Ny Nz ix iy iz (position_of F h1 a)).
    { intros a. unfold hd. rewrite bol_in_range_ok. reflexivity. }
    unfold kept. clear -Hin. clearbody hd f. induction (concat groups) as [|a l IH]; [reflexivity|]. cbn [map filter]. rewrite IH, Hin.
    destruct (in_cell F W Nx Ny Nz ix iy iz (position_of F h1 a)); reflexivity. }
  unfold bparticle in *. rewrite Ek, !map_map. cbn [bd_a hd]. do 2 f_equal. f_equal. 
  clear. induction kept; [reflexivity|]. cbn. now rewrite IHkept.
Qed.
