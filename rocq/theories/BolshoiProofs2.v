(** * Reading BolshoiP files. *)
From Coq Require Import ZArith Reals List Lia Bool.
From Verif Require Export BolshoiProofs.
Import List ListNotations.
Local Open Scope nat_scope.

Lemma part_words {A} (reader : nat -> list Z -> list Z -> option (bool * list Z * list Z)) w (enc : order -> A -> list Z) sys e cap (done g : list A) mem s :
  (forall a, In a done -> length (enc sys a) = w) ->
  (forall buf s, length buf = w * length g -> length buf <= cap -> reader (length g) buf (flat_map (enc e) g ++ s) = Some (false, flat_map (enc sys) g, s)) ->
  w * length g <= length mem -> length mem <= cap ->
  read_part reader w (flat_map (enc sys) done ++ mem) (length done) (Z.of_nat (length g)) (flat_map (enc e) g ++ s)
  = Some (flat_map (enc sys) (done ++ g) ++ skipn (w * length g) mem, s).
Proof.
  intros Hd Hr Hm Hc. set (buf := firstn (w * length g) mem). set (post := skipn (w * length g) mem).
  assert (Hb : length buf = w * length g) by (unfold buf; rewrite firstn_length; lia).
  replace (flat_map (enc sys) done ++ mem) with (flat_map (enc sys) done ++ buf ++ post) by (unfold buf, post; now rewrite firstn_skipn).
  rewrite (read_part_ok reader w (flat_map (enc sys) done) buf post (flat_map (enc sys) g) (length done) (length g) _ s
    (flat_map_length_in (enc sys) w done Hd) Hb (Hr buf s Hb ltac:(lia))).
  rewrite flat_map_app, <- app_assoc. reflexivity.
Qed.

Definition enc4 (f : particle -> Z) (o : order) (p : particle) : list Z := put o 4 (f p).
Definition enc8 (o : order) (p : particle) : list Z := put_int o 8 (p_id p).

Lemma part4 f sys e cap done g mem s : 4 * length g <= length mem -> length mem <= cap ->
  read_part (read_float32_as_byte sys e cap) 4 (flat_map (enc4 f sys) done ++ mem) (length done) (Z.of_nat (length g)) (flat_map (enc4 f e) g ++ s)
  = Some (flat_map (enc4 f sys) (done ++ g) ++ skipn (4 * length g) mem, s).
Proof.
  intros Hm Hc. apply (part_words _ 4 (enc4 f) sys e cap); try assumption.
  - intros a _. apply put_length.
  - intros buf s' Hb Hl. unfold enc4. rewrite <- !(flat_map_map (put _ 4) f). rewrite <- (map_length f g). apply read_float32_spec; [now rewrite map_length|exact Hl].
Qed.

Lemma part8 sys e cap done g mem s : 8 * length g <= length mem -> length mem <= cap ->
  read_part (read_int64_as_byte sys e cap) 8 (flat_map (enc8 sys) done ++ mem) (length done) (Z.of_nat (length g)) (flat_map (enc8 e) g ++ s)
  = Some (flat_map (enc8 sys) (done ++ g) ++ skipn (8 * length g) mem, s).
Proof.
  intros Hm Hc. apply (part_words _ 8 enc8 sys e cap); try assumption.
  - intros a _. apply put_int_length.
  - intros buf s' Hb Hl. unfold enc8, put_int. rewrite <- !(flat_map_map (put _ 8) (fun p => unsign 8 (p_id p))). rewrite <- (map_length (fun p => unsign 8 (p_id p)) g).
    apply read_int64_spec; [now rewrite map_length|exact Hl].
Qed.

Definition ax (f : particle -> list Z) (i : nat) (p : particle) : Z := nth i (f p) 0%Z.
Definition arrays (sys : order) (f : particle -> list Z) (done : list particle) (m : nat -> list Z) : list (list Z) :=
  [flat_map (enc4 (ax f 0) sys) done ++ m 0; flat_map (enc4 (ax f 1) sys) done ++ m 1; flat_map (enc4 (ax f 2) sys) done ++ m 2].

Lemma read_three_ok f sys e cap done g m s : (forall i, i < 3 -> 4 * length g <= length (m i) /\ length (m i) <= cap) ->
  read_three sys e cap (arrays sys f done m) (length done) (Z.of_nat (length g)) (axis_block e f 0 g ++ axis_block e f 1 g ++ axis_block e f 2 g ++ s)
  = Some (arrays sys f (done ++ g) (fun i => skipn (4 * length g) (m i)), s).
Proof.
  intros Hm. unfold read_three, arrays. cbn [loop rd nth_error].
  change (axis_block e f 0 g) with (flat_map (enc4 (ax f 0) e) g). rewrite part4 by (apply (Hm 0); lia). unfold wr. cbn [upd option_map rd nth_error].
  change (axis_block e f 1 g) with (flat_map (enc4 (ax f 1) e) g). rewrite part4 by (apply (Hm 1); lia). cbn [upd option_map rd nth_error].
  change (axis_block e f 2 g) with (flat_map (enc4 (ax f 2) e) g). rewrite part4 by (apply (Hm 2); lia). cbn [upd option_map rd nth_error]. reflexivity.
Qed.

Definition pblock (e : order) (g : list particle) : list Z :=
  frecord e (axis_block e p_x 0 g ++ axis_block e p_x 1 g ++ axis_block e p_x 2 g)
  ++ frecord e (axis_block e p_v 0 g ++ axis_block e p_v 1 g ++ axis_block e p_v 2 g)
  ++ frecord e (flat_map (fun p => put e 4 (p_m p)) g ++ flat_map (fun p => put_int e 8 (p_id p)) g).

Definition pstate (sys : order) (done : list particle) (mx mv : nat -> list Z) (mw mi : list Z) : pmem :=
  (arrays sys p_x done mx, arrays sys p_v done mv, flat_map (enc4 p_m sys) done ++ mw, flat_map (enc8 sys) done ++ mi).

Ltac skip_i32 e := match goal with |- context [read_i32 e (put_int e 4 ?v ++ ?s)] =>
  let w := fresh "w" in destruct (read_i32_app e v s) as (w & -> & _) end.

Lemma skipn_len {A} k (l : list A) n : length l = k + n -> length (skipn k l) = n.
Proof. intros H. rewrite skipn_length. lia. Qed.

Lemma bolp_groups_ok sys e cap rest groups : forall fuel done mx mv mw mi,
  (forall i, i < 3 -> length (mx i) = 4 * length (concat groups)) -> (forall i, i < 3 -> length (mv i) = 4 * length (concat groups)) ->
  length mw = 4 * length (concat groups) -> length mi = 8 * length (concat groups) -> 8 * length (concat groups) <= cap ->
  (Z.of_nat (length (concat groups)) < 2 ^ 31)%Z -> length groups < fuel ->
  exists mx' mv' mw' mi' r, bolp_groups fuel sys e cap (Z.of_nat (length done + length (concat groups))) (length done) (pstate sys done mx mv mw mi)
    (flat_map (fun g => frecord e (put_int e 4 (Z.of_nat (length g))) ++ pblock e g) groups ++ rest) = Some (pstate sys (done ++ concat groups) mx' mv' mw' mi', r) /\
    (forall i, i < 3 -> mx' i = []) /\ (forall i, i < 3 -> mv' i = []) /\ mw' = [] /\ mi' = [] /\ (Forall (fun g => g <> []) groups -> r = rest).
Proof.
  induction groups as [|g groups IH]; intros fuel done mx mv mw mi Hx Hv Hw Hi Hc Hn Hf.
  - destruct fuel as [|fuel]; [lia|]. cbn [bolp_groups concat length]. rewrite Nat.add_0_r, (proj2 (Z.ltb_ge _ _)) by lia.
    cbn [concat length] in *. exists mx, mv, mw, mi, rest. rewrite app_nil_r. split; [reflexivity|]. split; [|split; [|split; [|split]]].
    + intros i Hi3. apply length_zero_iff_nil. rewrite Hx by exact Hi3. lia.
    + intros i Hi3. apply length_zero_iff_nil. rewrite Hv by exact Hi3. lia.
    + apply length_zero_iff_nil. lia.
    + apply length_zero_iff_nil. lia.
    + auto.
  - destruct fuel as [|fuel]; [cbn in Hf; lia|]. cbn [concat] in *. rewrite app_length in *. cbn [bolp_groups].
    destruct (Z.ltb_spec (Z.of_nat (length done)) (Z.of_nat (length done + (length g + length (concat groups))))) as [L|L].
    + unfold pstate at 1. cbn [flat_map]. unfold pblock at 1. rewrite <- !app_assoc. rewrite fortran_read_ok by (try apply put_int_length; cbn; lia).
      rewrite get_put_int by (apply ir4; lia). unfold frecord at 1 2 3. rewrite <- !app_assoc.
      skip_i32 e. rewrite read_three_ok by (intros i Hi3; rewrite Hx by exact Hi3; lia).
      skip_i32 e. skip_i32 e. rewrite read_three_ok by (intros i Hi3; rewrite Hv by exact Hi3; lia).
      skip_i32 e. skip_i32 e.
      change (flat_map (fun p => put e 4 (p_m p)) g) with (flat_map (enc4 p_m e) g). rewrite part4 by lia.
      change (flat_map (fun p => put_int e 8 (p_id p)) g) with (flat_map (enc8 e) g). rewrite part8 by lia.
      skip_i32 e. rewrite Nat2Z.id. rewrite <- (app_length done g).
      destruct (IH fuel (done ++ g) (fun i => skipn (4 * length g) (mx i)) (fun i => skipn (4 * length g) (mv i)) (skipn (4 * length g) mw) (skipn (8 * length g) mi))
        as (mx' & mv' & mw' & mi' & r & E & R1 & R2 & R3 & R4 & R5).
      * intros i Hi3. rewrite skipn_length, Hx by exact Hi3. lia.
      * intros i Hi3. rewrite skipn_length, Hv by exact Hi3. lia.
      * rewrite skipn_length. lia.
      * rewrite skipn_length. lia.
      * lia.
      * lia.
      * cbn in Hf. lia.
      * exists mx', mv', mw', mi', r. split; [|repeat split; auto; intros Hne; inversion Hne; auto].
        replace (length done + (length g + length (concat groups))) with (length (done ++ g) + length (concat groups)) by (rewrite app_length; lia).
        rewrite (app_assoc done g). exact E.
    + assert (length g = 0 /\ length (concat groups) = 0) as (G1 & G2) by lia. destruct g; [|cbn in G1; lia]. destruct (concat groups) as [|? ?]; [|cbn in G2; lia].
      cbn [app length] in *. eexists mx, mv, mw, mi, _. rewrite app_nil_r. split; [reflexivity|]. split; [|split; [|split; [|split]]].
      * intros i Hi3. apply length_zero_iff_nil. rewrite Hx by exact Hi3. lia.
      * intros i Hi3. apply length_zero_iff_nil. rewrite Hv by exact Hi3. lia.
      * apply length_zero_iff_nil. lia.
      * apply length_zero_iff_nil. lia.
      * intros Hne. inversion Hne. congruence.
Qed.

Lemma mem4 f sys g : (forall p, In p g -> word 4 (f p)) -> mem_words sys 4 (length g) (flat_map (enc4 f sys) g) = map f g.
Proof.
  intros H. unfold enc4. rewrite <- (flat_map_map (put sys 4) f). rewrite <- (map_length f g). apply mem_words_put.
  apply Forall_forall. intros v Hv. apply in_map_iff in Hv as (p & <- & Hp). now apply H.
Qed.
Lemma mem8 sys g : (forall p, In p g -> fits 8 (p_id p)) -> mem_ints sys 8 (length g) (flat_map (enc8 sys) g) = map p_id g.
Proof.
  intros H. unfold enc8, put_int. rewrite <- (flat_map_map (put sys 8) (fun p => unsign 8 (p_id p))), <- (map_map p_id (unsign 8)). rewrite <- (map_length p_id g). apply mem_ints_put.
  apply Forall_forall. intros v Hv. apply in_map_iff in Hv as (p & <- & Hp). now apply H.
Qed.

Lemma firstn_wr_ge {A} (l l' : list A) i v j : wr l i v = Some l' -> j <= i -> firstn j l' = firstn j l.
Proof.
  intros H Hj. assert (Hi : i < length l) by (destruct (Nat.lt_ge_cases i (length l)); [assumption|rewrite wr_none in H by assumption; discriminate]).
  rewrite wr_split in H by exact Hi. injection H as <-. rewrite firstn_app, firstn_firstn, firstn_length. rewrite Nat.min_l by lia.
  replace (j - Nat.min i (length l)) with 0 by lia. cbn [firstn]. apply app_nil_r.
Qed.
Lemma firstn_wr_eq {A} (l l' : list A) i v : wr l i v = Some l' -> firstn (S i) l' = firstn i l ++ [v].
Proof.
  intros H. assert (Hi : i < length l) by (destruct (Nat.lt_ge_cases i (length l)); [assumption|rewrite wr_none in H by assumption; discriminate]).
  rewrite wr_split in H by exact Hi. injection H as <-. rewrite firstn_app, firstn_firstn, firstn_length. replace (Nat.min (S i) i) with i by lia.
  replace (S i - Nat.min i (length l)) with 1 by lia. reflexivity.
Qed.
Lemma nth_wr_ne {A} (l l' : list A) i v k : wr l i v = Some l' -> k <> i -> nth_error l' k = nth_error l k.
Proof. intros H Hk. unfold wr in H. rewrite (upd_nth_error _ _ _ _ k H). destruct (Nat.eqb_spec k i); [contradiction|reflexivity]. Qed.
Lemma nth_wr_eq {A} (l l' : list A) i v : wr l i v = Some l' -> nth_error l' i = Some v.
Proof. intros H. unfold wr in H. rewrite (upd_nth_error _ _ _ _ i H). now rewrite Nat.eqb_refl. Qed.
Lemma wr_len {A} (l l' : list A) i v : wr l i v = Some l' -> length l' = length l.
Proof. apply upd_length. Qed.
Lemma wr_ex {A} (l : list A) i v : i < length l -> exists l', wr l i v = Some l'.
Proof. intros H. rewrite wr_split by exact H. eauto. Qed.

Lemma filter_bolshoiP_ok F hd scale (ps : list particle) xs0 vs0 : length xs0 = length ps -> length vs0 = length ps ->
  (forall p, In p ps -> length (p_x p) = 3 /\ length (p_v p) = 3) ->
  let kept := filter (fun p => bol_in_range F (p_x p) hd) ps in
  exists xs vs ids, filter_bolshoiP F hd scale (length ps) (map (fun i => map (ax p_x i) ps) [0; 1; 2]) (map (fun i => map (ax p_v i) ps) [0; 1; 2])
      (xs0, vs0, map p_id ps) = Some (xs, vs, ids, length kept) /\
    firstn (length kept) xs = map p_x kept /\ firstn (length kept) vs = map (fun p => map (b_mul F scale) (p_v p)) kept /\ firstn (length kept) ids = map p_id kept.
Proof.
  intros Hx Hv H3 kept. set (kp := fun k => filter (fun p => bol_in_range F (p_x p) hd) (firstn k ps)).
  unfold filter_bolshoiP.
  match goal with |- context [loop _ ?b _] => set (body := b) end.
  destruct (loop_inv (fun k (st : list (list Z) * list (list Z) * list Z * nat) => let '(xs, vs, ids, j) := st in
     length xs = length ps /\ length vs = length ps /\ length ids = length ps /\ j = length (kp k) /\ j <= k /\
     firstn j xs = map p_x (kp k) /\ firstn j vs = map (fun p => map (b_mul F scale) (p_v p)) (kp k) /\ firstn j ids = map p_id (kp k) /\
     forall i, k <= i -> nth_error ids i = nth_error (map p_id ps) i)
    (length ps) body (xs0, vs0, map p_id ps, 0)) as ((((xs, vs), ids), j) & E & H).
  - cbn. rewrite map_length. repeat split; auto.
  - intros k (((xs, vs), ids), j) Hk (L1 & L2 & L3 & Ej & Hj & F1 & F2 & F3 & N).
    assert (Hp : exists p, nth_error ps k = Some p).
    { destruct (nth_error ps k) eqn:Q; [eauto|]. apply nth_error_None in Q. lia. }
    destruct Hp as (p & Hp). destruct (H3 p (nth_error_In _ _ Hp)) as (X3 & V3).
    assert (Ek : kp (S k) = kp k ++ if bol_in_range F (p_x p) hd then [p] else []).
    { unfold kp. assert (firstn (S k) ps = firstn k ps ++ [p]) as ->.
      { clear -Hp. revert ps Hp. induction k as [|k IH]; intros l H; destruct l as [|a l]; try discriminate; [cbn in H; injection H as ->; reflexivity|].
        change (firstn (S (S k)) (a :: l)) with (a :: firstn (S k) l). rewrite (IH l H). reflexivity. }
      rewrite filter_app. cbn [filter]. reflexivity. }
    assert (RX : [ax p_x 0 p; ax p_x 1 p; ax p_x 2 p] = p_x p).
    { unfold ax. destruct (p_x p) as [|a [|b [|c [|]]]]; cbn in X3; try lia. reflexivity. }
    assert (RV : [ax p_v 0 p; ax p_v 1 p; ax p_v 2 p] = p_v p).
    { unfold ax. destruct (p_v p) as [|a [|b [|c [|]]]]; cbn in V3; try lia. reflexivity. }
    unfold body at 1. unfold rd. cbn [map nth]. rewrite !nth_error_map, Hp. cbn [option_map]. rewrite RX, RV.
    destruct (wr_ex xs k (p_x p) ltac:(lia)) as (xs1 & W1). rewrite W1. destruct (wr_ex vs k (p_v p) ltac:(lia)) as (vs1 & W2). rewrite W2.
    rewrite (nth_wr_eq _ _ _ _ W1). pose proof (wr_len _ _ _ _ W1) as LL1. pose proof (wr_len _ _ _ _ W2) as LL2.
    destruct (bol_in_range F (p_x p) hd) eqn:Er; cbn [negb].
    + destruct (wr_ex xs1 j (p_x p) ltac:(lia)) as (xs2 & W3). rewrite W3. rewrite (nth_wr_eq _ _ _ _ W2).
      destruct (wr_ex vs1 j (map (b_mul F scale) (p_v p)) ltac:(lia)) as (vs2 & W4). rewrite W4.
      rewrite (N k (Nat.le_refl k)), nth_error_map, Hp. cbn [option_map].
      destruct (wr_ex ids j (p_id p) ltac:(lia)) as (ids2 & W5). rewrite W5.
      eexists. split; [reflexivity|]. cbv beta iota. rewrite (wr_len _ _ _ _ W3), (wr_len _ _ _ _ W4), (wr_len _ _ _ _ W5).
      rewrite Ek, !map_app, app_length. cbn [map length].
      rewrite (firstn_wr_eq _ _ _ _ W3), (firstn_wr_eq _ _ _ _ W4), (firstn_wr_eq _ _ _ _ W5), (firstn_wr_ge _ _ _ _ j W1 Hj), (firstn_wr_ge _ _ _ _ j W2 Hj), F1, F2, F3.
      split; [lia|]. split; [lia|]. split; [lia|]. split; [lia|]. split; [lia|]. split; [reflexivity|]. split; [reflexivity|]. split; [reflexivity|].
      intros i Hi. rewrite (nth_wr_ne _ _ _ _ i W5) by lia. apply N. lia.
    + eexists. split; [reflexivity|]. cbv beta iota. rewrite Ek, app_nil_r. rewrite (firstn_wr_ge _ _ _ _ j W1 Hj), (firstn_wr_ge _ _ _ _ j W2 Hj).
      repeat split; try assumption; try lia. intros i Hi. apply N. lia.
  - unfold kp in H. rewrite firstn_all in H. fold kept in H. destruct H as (_ & _ & _ & -> & _ & H1 & H2 & H4 & _). exists xs, vs, ids. auto.
Qed.

Lemma read_bolshoiP_ok F sys e cap stale sx sv comment h1 h2 bnd K Nx Ny Nz groups rest ix iy iz :
  (forall i n, length (stale i n) = n) -> (forall n, length (sx n) = n) -> (forall n, length (sv n) = n) ->
  bol_good true comment h1 h2 bnd K Nx Ny Nz groups -> 8 * length (concat groups) <= cap ->
  K = cell_number Nx Ny ix iy iz -> (0 <= ix < Nx)%Z -> (0 <= iy < Ny)%Z -> (0 <= iz < Nz)%Z ->
  let W := nth 10 h1 0%Z in
  let kept := filter (fun p => in_cell F W Nx Ny Nz ix iy iz (p_x p)) (concat groups) in
  read_bolshoiP F sys e cap stale sx sv (bolshoiP_file e comment h1 h2 bnd groups ++ rest) =
  Some (map p_x kept, map (fun p => map (fun v => b_mul F (b_scale F (nth 0 h1 0%Z)) v) (p_v p)) kept,
        repeat (nth 11 h1 0%Z) (length kept), map p_id kept).
Proof.
  intros Hst Hsx Hsv G Hcap HK Hx Hy Hz W kept.
  unfold read_bolshoiP, bolshoiP_file. rewrite <- app_assoc.
  change (fun g : list particle => frecord e (put_int e 4 (Z.of_nat (length g))) ++ frecord e (axis_block e p_x 0 g ++ axis_block e p_x 1 g ++ axis_block e p_x 2 g) ++
     frecord e (axis_block e p_v 0 g ++ axis_block e p_v 1 g ++ axis_block e p_v 2 g) ++ frecord e (flat_map (fun p => put e 4 (p_m p)) g ++ flat_map (fun p => put_int e 8 (p_id p)) g))
   with (fun g : list particle => frecord e (put_int e 4 (Z.of_nat (length g))) ++ pblock e g).
  set (file := bol_start _ _ _ _ _ _ _ ++ _).
  pose proof G as [G1 G2 G3 G4 G5 G6 G7 G8 G9 G10 G11 G12 G13].
  assert (Eh : bol_head true e file = Some (h1, h2, Z.of_nat (length (concat groups)), flat_map (fun g => frecord e (put_int e 4 (Z.of_nat (length g))) ++ pblock e g) groups ++ rest))
    by (apply bol_head_ok; assumption).
  rewrite Eh. rewrite (proj2 (Z.ltb_ge _ _)) by lia. rewrite Nat2Z.id.
  set (n := length (concat groups)) in *.
  destruct (bolp_groups_ok sys e cap rest groups (S (length file)) [] (fun i => stale i (4 * n)) (fun i => stale (3 + i) (4 * n)) (stale 6 (4 * n)) (stale 7 (8 * n)))
    as (mx & mv & mw & mi & r & Eg & Mx & Mv & -> & -> & _); fold n; auto.
  { unfold file. apply (groups_fuel (pblock e)). }
  change (pstate sys [] (fun i => stale i (4 * n)) (fun i => stale (3 + i) (4 * n)) (stale 6 (4 * n)) (stale 7 (8 * n)))
    with (map (fun i => stale i (4 * n)) [0; 1; 2], map (fun i => stale i (4 * n)) [3; 4; 5], stale 6 (4 * n), stale 7 (8 * n)) in Eg.
  change (length (@nil particle) + length (concat groups)) with n in Eg. change (length (@nil particle)) with 0 in Eg. rewrite Eg.
  change ([] ++ concat groups) with (concat groups).
  assert (Hall : forall p, In p (concat groups) -> good_particle 8 p).
  { intros p Hp. apply in_concat in Hp as (g & Hg & Hp). exact (proj1 (Forall_forall _ _) (proj1 (Forall_forall _ _) G13 g Hg) p Hp). }
  assert (AX : forall f i p, (f = p_x \/ f = p_v) -> In p (concat groups) -> i < 3 -> word 4 (ax f i p)).
  { intros f i p Hf Hp Hi. destruct (Hall p Hp) as [X3 X V3 V M I]. unfold ax. destruct Hf as [-> | ->].
    - apply (proj1 (Forall_forall _ _) X). apply nth_In. lia.
    - apply (proj1 (Forall_forall _ _) V). apply nth_In. lia. }
  unfold pstate. rewrite !app_nil_r.
  unfold file. rewrite (bol_file_header F true e comment h1 h2 bnd K Nx Ny Nz groups ix iy iz _ G HK Hx Hy Hz). fold n.
  assert (EX : map (mem_words sys 4 n) (arrays sys p_x (concat groups) mx) = map (fun i => map (ax p_x i) (concat groups)) [0; 1; 2]).
  { unfold arrays. cbn [map]. rewrite !Mx by lia. rewrite !app_nil_r. unfold n. rewrite !mem4 by (intros; apply AX; auto). reflexivity. }
  assert (EV : map (mem_words sys 4 n) (arrays sys p_v (concat groups) mv) = map (fun i => map (ax p_v i) (concat groups)) [0; 1; 2]).
  { unfold arrays. cbn [map]. rewrite !Mv by lia. rewrite !app_nil_r. unfold n. rewrite !mem4 by (intros; apply AX; auto). reflexivity. }
  rewrite EX, EV. pose proof (mem8 sys (concat groups) (fun p Hp => gp_id _ _ (Hall p Hp))) as EI. fold n in EI. rewrite EI.
  set (hd := {| bd_n := _ |}). cbn [bd_a]. change (bd_a hd) with (nth 0 h1 0%Z).
  destruct (filter_bolshoiP_ok F hd (b_scale F (nth 0 h1 0%Z)) (concat groups) (sx n) (sv n)) as (xs & vs & ids & E & R1 & R2 & R3); auto.
  { intros p Hp. destruct (Hall p Hp) as [X3 X V3 V M I]. auto. }
  fold n in E. rewrite E.
  assert (Ek : filter (fun p => bol_in_range F (p_x p) hd) (concat groups) = kept).
  { unfold kept. apply filter_ext. intros p. apply bol_in_range_ok. }
  rewrite Ek in *. rewrite R1, R2, R3. reflexivity.
Qed.
