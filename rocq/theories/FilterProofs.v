(** * Proofs about filter files. *)
From Verif Require Export BytesFacts FilterModel.
Local Open Scope Z_scope.

(** What the header table contains, independently of the loop that fills it. *)
Definition info_at (d : FilterData) (i : nat) : haloInfo :=
  {| h_id := nth i (f_ids d) 0; h_snap := nth i (f_snaps d) 0;
     h_start := 8 + 32 * Z.of_nat (length (f_snaps d));
     h_len := Z.of_nat (length (nth i (f_particles d) [])) |}.

Lemma make_info_spec d :
  (length (f_snaps d) <= length (f_ids d))%nat ->
  (length (f_snaps d) <= length (f_particles d))%nat ->
  make_info d = Some (map (info_at d) (seq 0 (length (f_snaps d)))).
Proof.
  intros Hi Hp. unfold make_info. set (n := length (f_snaps d)) in *.
  set (z := {| h_id := 0; h_snap := 0; h_start := 0; h_len := 0 |}).
  set (body := info_step d 0 _).
  assert (exists r, loop n body (repeat z n) = Some r /\
            (length r = n /\ forall j, (j < n)%nat -> nth j r z = info_at d j)) as (r & Hr & Hl & Hn).
  { apply (loop_inv (fun k r => length r = n /\ forall j, (j < k)%nat -> nth j r z = info_at d j)).
    - split; [apply repeat_length|lia].
    - intros i r Hin [Hl Hn]. unfold body, info_step.
      rewrite (rd_nth (f_snaps d) i 0) by (fold n; lia).
      rewrite (rd_nth (f_ids d) i 0) by lia.
      rewrite (rd_nth (f_particles d) i []) by lia.
      destruct (wr_some r i {| h_id := nth i (f_ids d) 0; h_snap := nth i (f_snaps d) 0;
         h_start := 0 * 8 + (4 + 4 + Z.of_nat n * 32);
         h_len := Z.of_nat (length (nth i (f_particles d) [])) |} z) as (r' & Hw & Hl' & Hn'); [lia|].
      exists r'. split; [exact Hw|]. split; [lia|].
      intros j Hj. rewrite Hn'. destruct (Nat.eqb_spec j i).
      + subst j. unfold info_at. fold n. f_equal. lia.
      + apply Hn. lia. }
  rewrite Hr. f_equal. apply nth_ext with z z.
  - rewrite map_length, seq_length. exact Hl.
  - intros j Hj. rewrite Hl in Hj. rewrite Hn by lia.
    rewrite nth_indep with (d' := info_at d 0) by (rewrite map_length, seq_length; lia).
    rewrite map_nth, seq_nth by lia. reflexivity.
Qed.

Lemma body_spec (ps : list (list Z)) o n : (n <= length ps)%nat ->
  loop n (fun i out => do p <- rd ps i; Some (out ++ write_ints o 8 p)) []
  = Some (flat_map (write_ints o 8) (firstn n ps)).
Proof.
  induction n as [|n IH]; intros H; cbn [loop]; [reflexivity|].
  rewrite IH by lia. rewrite (rd_nth ps n []) by lia. f_equal.
  assert (firstn (S n) ps = firstn n ps ++ [nth n ps []]) as ->.
  { clear -H. revert ps H; induction n; intros [|p ps] H; cbn [length] in H; try lia; cbn [firstn nth app]; [reflexivity|].
    f_equal. rewrite <- IHn by lia. reflexivity. }
  rewrite flat_map_app. cbn [flat_map]. now rewrite app_nil_r.
Qed.

Definition order_of_flag (sys : order) (flag : bytes) (o : order) : Prop :=
  (flag = lit "LittleEndian" /\ o = LE) \/ (flag = lit "BigEndian" /\ o = BE) \/
  (flag = lit "SystemOrder" /\ o = sys).

Lemma flag_to_order_spec sys flag o : flag_to_order sys flag = Some o <-> order_of_flag sys flag o.
Proof.
  unfold flag_to_order, order_of_flag.
  destruct (beq flag (lit "LittleEndian")) eqn:E1;
    [apply beq_true in E1|apply beq_false in E1].
  { split; [intros [= <-]; auto|]. subst. intros [[_ ->]|[[H _]|[H _]]]; [reflexivity|discriminate..]. }
  destruct (beq flag (lit "BigEndian")) eqn:E2;
    [apply beq_true in E2|apply beq_false in E2].
  { split; [intros [= <-]; auto|]. subst. intros [[H _]|[[_ ->]|[H _]]]; [discriminate|reflexivity|discriminate]. }
  destruct (beq flag (lit "SystemOrder")) eqn:E3;
    [apply beq_true in E3|apply beq_false in E3].
  { split; [intros [= <-]; right; right; split; [assumption|destruct sys; reflexivity]|].
    subst. intros [[H _]|[[H _]|[_ ->]]]; [discriminate..|]. destruct sys; reflexivity. }
  split; [discriminate|]. intros [[H _]|[[H _]|[H _]]]; contradiction.
Qed.

Definition file_of (o : order) (d : FilterData) : list Z :=
  put_int o 4 (match o with BE => -1 | LE => 0 end)
  ++ put_int o 4 (Z.of_nat (length (f_snaps d)))
  ++ flat_map (put_info o) (map (info_at d) (seq 0 (length (f_snaps d))))
  ++ flat_map (write_ints o 8) (firstn (length (f_snaps d)) (f_particles d)).

Lemma write_filter_spec sys flag d o :
  (length (f_snaps d) <= length (f_ids d))%nat ->
  (length (f_snaps d) <= length (f_particles d))%nat ->
  order_of_flag sys flag o ->
  write_filter sys flag d = Some (file_of o d).
Proof.
  intros H1 H2 Hf. unfold write_filter. rewrite (proj2 (flag_to_order_spec _ _ _) Hf).
  rewrite make_info_spec by assumption. rewrite map_length, seq_length.
  rewrite body_spec by assumption. reflexivity.
Qed.

Lemma write_filter_none sys flag d :
  write_filter sys flag d = None <->
  (~ exists o, order_of_flag sys flag o) \/ (length (f_ids d) < length (f_snaps d))%nat
  \/ (length (f_particles d) < length (f_snaps d))%nat.
Proof.
  split.
  - intros H. destruct (flag_to_order sys flag) as [o|] eqn:Ef.
    + right. destruct (Nat.lt_ge_cases (length (f_ids d)) (length (f_snaps d))); [now left|].
      destruct (Nat.lt_ge_cases (length (f_particles d)) (length (f_snaps d))); [now right|].
      apply flag_to_order_spec in Ef. rewrite (write_filter_spec _ _ _ _ H0 H1 Ef) in H. discriminate.
    + left. intros [o Ho]. apply flag_to_order_spec in Ho. congruence.
  - intros H. unfold write_filter. destruct (flag_to_order sys flag) as [o|] eqn:Ef; [|reflexivity].
    destruct H as [H|H].
    { elim H. exists o. now apply flag_to_order_spec. }
    assert (make_info d = None) as ->; [|reflexivity].
    unfold make_info. set (n := length (f_snaps d)) in *.
    set (m := Nat.min (length (f_ids d)) (length (f_particles d))).
    apply loop_none with (S m); [unfold m; lia|]. cbn [loop].
    destruct (loop m _ _) as [t|]; [|reflexivity]. unfold info_step.
    rewrite (rd_nth (f_snaps d) m 0) by (fold n; unfold m; lia).
    destruct (Nat.lt_ge_cases m (length (f_ids d))).
    + rewrite (rd_nth (f_ids d) m 0) by lia.
      rewrite rd_none by (unfold m in *; lia). reflexivity.
    + rewrite rd_none by lia. reflexivity.
Qed.

(** The data a filter file can hold. *)
Definition storable (d : FilterData) : Prop :=
  length (f_ids d) = length (f_snaps d) /\ length (f_particles d) = length (f_snaps d) /\
  Z.of_nat (length (f_snaps d)) < 2 ^ 31 /\
  Forall (int_range 8) (f_snaps d) /\ Forall (int_range 8) (f_ids d) /\
  Forall (fun p => Z.of_nat (length p) < 2 ^ 63 /\ Forall (int_range 8) p) (f_particles d).

Lemma map_nth_seq {A B} (f : A -> B) (l : list A) d :
  map (fun i => f (nth i l d)) (seq 0 (length l)) = map f l.
Proof.
  induction l as [|a l IH]; [reflexivity|]. cbn [length seq map nth]. f_equal.
  rewrite <- seq_shift, map_map. exact IH.
Qed.

Lemma info_at_ok d i : storable d -> (i < length (f_snaps d))%nat ->
  Forall (int_range 8) [h_id (info_at d i); h_snap (info_at d i); h_start (info_at d i); h_len (info_at d i)].
Proof.
  intros (H1 & H2 & H3 & H4 & H5 & H6) Hi. unfold info_at; cbn [h_id h_snap h_start h_len].
  assert (int_range 8 (nth i (f_ids d) 0)) as Hid.
  { apply (proj1 (Forall_forall _ _) H5). apply nth_In. lia. }
  assert (int_range 8 (nth i (f_snaps d) 0)) as Hs.
  { apply (proj1 (Forall_forall _ _) H4). apply nth_In. lia. }
  assert (int_range 8 (Z.of_nat (length (nth i (f_particles d) [])))) as Hp.
  { assert (In (nth i (f_particles d) []) (f_particles d)) as Hin by (apply nth_In; lia).
    destruct (proj1 (Forall_forall _ _) H6 _ Hin) as [Hl _].
    unfold int_range. change (256 ^ Z.of_nat 8) with 18446744073709551616.
    change (2 ^ 63) with 9223372036854775808 in Hl. lia. }
  repeat apply Forall_cons; auto.
  unfold int_range. change (256 ^ Z.of_nat 8) with 18446744073709551616.
  change (2 ^ 31) with 2147483648 in H3. lia.
Qed.

Lemma put_info_length o h : length (put_info o h) = 32%nat.
Proof. unfold put_info. rewrite write_ints_length. reflexivity. Qed.

Lemma info_of_put o h :
  Forall (int_range 8) [h_id h; h_snap h; h_start h; h_len h] ->
  info_of (map (get_int o) (chunks 8 4 (put_info o h))) = h.
Proof.
  intros H. unfold put_info.
  change 4%nat with (length [h_id h; h_snap h; h_start h; h_len h]).
  rewrite get_write_ints by assumption. destruct h; reflexivity.
Qed.

Lemma read_info_spec o infos s :
  (forall h, In h infos -> Forall (int_range 8) [h_id h; h_snap h; h_start h; h_len h]) ->
  read_info o (length infos) (flat_map (put_info o) infos ++ s) = (infos, s).
Proof.
  intros H. unfold read_info.
  rewrite read_full_app by (apply flat_map_length; intros; apply put_info_length).
  rewrite chunks_flat_map by (intros; apply put_info_length). f_equal.
  rewrite map_map. rewrite <- (map_id infos) at 2. apply map_ext_in. intros h Hh.
  apply info_of_put. auto.
Qed.

Lemma read_particles_spec o infos ps s :
  map h_len infos = map (fun p : list Z => Z.of_nat (length p)) ps ->
  Forall (Forall (int_range 8)) ps ->
  read_particles o infos (flat_map (write_ints o 8) ps ++ s) = Some ps.
Proof.
  revert ps; induction infos as [|h infos IH]; intros [|p ps] Hm Hf; cbn [map] in Hm; try discriminate.
  - reflexivity.
  - injection Hm as Hh Hm. inversion Hf; subst.
    cbn [read_particles flat_map]. rewrite Hh. rewrite (proj2 (Z.ltb_ge _ _)) by lia.
    rewrite Nat2Z.id. rewrite <- app_assoc. rewrite read_write_ints by auto.
    rewrite IH by assumption. reflexivity.
Qed.

Lemma read_ints_one o v s : int_range 4 v -> read_ints o 4 1 [0] (put_int o 4 v ++ s) = ([v], s).
Proof.
  intros H. pose proof (read_write_ints o 4 [v] 1 [0] s (Forall_cons _ H (Forall_nil _)) eq_refl) as Hr.
  unfold write_ints in Hr. cbn [flat_map] in Hr. rewrite app_nil_r in Hr. exact Hr.
Qed.

Lemma count_range n : Z.of_nat n < 2 ^ 31 -> int_range 4 (Z.of_nat n).
Proof. unfold int_range. change (256 ^ Z.of_nat 4) with 4294967296. change (2^31) with 2147483648. lia. Qed.

Lemma flag_reads o s : read_ints LE 4 1 [0] (put_int o 4 (match o with BE => -1 | LE => 0 end) ++ s)
  = ([match o with BE => -1 | LE => 0 end], s).
Proof.
  destruct o.
  - apply read_ints_one. unfold int_range. change (256 ^ Z.of_nat 4) with 4294967296. lia.
  - reflexivity.
Qed.

Lemma read_filter_file o s :
  read_filter (put_int o 4 (match o with BE => -1 | LE => 0 end) ++ s) =
  let '(nn, s2) := read_ints o 4 1 [0] s in
    let haloNum := nth 0 nn 0 in
    if haloNum <? 0 then Panic
    else
      let '(info, s3) := read_info o (Z.to_nat haloNum) s2 in
      match read_particles o info s3 with
      | Some ps => Ok {| f_snaps := map h_snap info; f_ids := map h_id info; f_particles := ps |}
      | None => Panic
      end.
Proof.
  unfold read_filter. rewrite flag_reads. destruct o; cbn [nth]; [reflexivity|].
  change (-1 =? 0) with false. change (-1 =? -1) with true. reflexivity.
Qed.

Lemma infos_ok d : storable d ->
  forall h, In h (map (info_at d) (seq 0 (length (f_snaps d)))) ->
  Forall (int_range 8) [h_id h; h_snap h; h_start h; h_len h].
Proof.
  intros Hd h Hh. apply in_map_iff in Hh as (i & <- & Hi). apply in_seq in Hi. apply info_at_ok; auto; lia.
Qed.

Lemma info_lens d : storable d ->
  map h_len (map (info_at d) (seq 0 (length (f_snaps d)))) =
  map (fun p : list Z => Z.of_nat (length p)) (f_particles d).
Proof.
  intros (_ & H & _). rewrite map_map. rewrite <- H.
  exact (map_nth_seq (fun p => Z.of_nat (length p)) (f_particles d) []).
Qed.

Lemma round_trip o d : storable d -> read_filter (file_of o d) = Ok d.
Proof.
  intros Hd. unfold file_of. rewrite read_filter_file.
  pose proof Hd as (H1 & H2 & H3 & H4 & H5 & H6).
  rewrite read_ints_one by now apply count_range. cbn [nth].
  rewrite (proj2 (Z.ltb_ge _ _)) by lia. rewrite Nat2Z.id.
  set (infos := map (info_at d) (seq 0 (length (f_snaps d)))).
  assert (length infos = length (f_snaps d)) as Hlen by (unfold infos; rewrite map_length, seq_length; reflexivity).
  rewrite <- Hlen at 1. rewrite read_info_spec by (intros; eapply infos_ok; eauto).
  rewrite <- H2, firstn_all. rewrite <- (app_nil_r (flat_map _ _)).
  rewrite read_particles_spec; [|now apply info_lens|].
  - f_equal. unfold infos. rewrite !map_map. destruct d as [sn ids ps]; cbn [f_snaps f_ids f_particles] in *.
    f_equal.
    + pose proof (map_nth_seq (fun x => x) sn 0) as E. rewrite map_id in E. exact E.
    + pose proof (map_nth_seq (fun x => x) ids 0) as E. rewrite map_id in E. rewrite <- H1. exact E.
  - eapply Forall_impl; [|exact H6]. intros p [_ Hp]; exact Hp.
Qed.

(** The bytes of a file from offset a, n of them. *)
Definition slice (bs : list Z) (a n : nat) : list Z := firstn n (skipn a bs).

Lemma slice_mid x y z a n : length x = a -> length y = n -> slice (x ++ y ++ z) a n = y.
Proof.
  intros <- <-. unfold slice. rewrite skipn_app, skipn_all, Nat.sub_diag. cbn [skipn app].
  rewrite firstn_app, firstn_all, Nat.sub_diag. cbn [firstn]. now rewrite app_nil_r.
Qed.

Lemma flat_map_nth {A} (f : A -> list Z) (xs : list A) i d : (i < length xs)%nat ->
  flat_map f xs = flat_map f (firstn i xs) ++ f (nth i xs d) ++ flat_map f (skipn (S i) xs).
Proof.
  revert i; induction xs as [|x xs IH]; intros [|i] H; cbn [length] in H; try lia; cbn [flat_map firstn nth skipn app].
  - reflexivity.
  - rewrite (IH i) by lia. rewrite <- !app_assoc. reflexivity.
Qed.

Lemma file_start o d i : storable d -> (i < length (f_snaps d))%nat ->
  get_int o (slice (file_of o d) (8 + 32 * i + 16) 8) = 8 + 32 * Z.of_nat (length (f_snaps d)).
Proof.
  intros Hd Hi. unfold file_of.
  set (infos := map (info_at d) (seq 0 (length (f_snaps d)))).
  set (hd := put_int o 4 (match o with BE => -1 | LE => 0 end)).
  set (hn := put_int o 4 (Z.of_nat (length (f_snaps d)))).
  set (tl := flat_map (write_ints o 8) _).
  assert (length infos = length (f_snaps d)) as Hlen by (unfold infos; rewrite map_length, seq_length; reflexivity).
  rewrite (flat_map_nth _ infos i (info_at d 0)) by lia.
  assert (nth i infos (info_at d 0) = info_at d i) as ->.
  { unfold infos. rewrite map_nth, seq_nth by lia. reflexivity. }
  unfold put_info at 2. unfold write_ints. cbn [flat_map]. rewrite <- !app_assoc.
  set (pre := flat_map (put_info o) (firstn i infos)).
  match goal with |- context [slice (hd ++ hn ++ pre ++ ?a ++ ?b ++ ?c ++ ?r) _ _] =>
    replace (hd ++ hn ++ pre ++ a ++ b ++ c ++ r) with ((hd ++ hn ++ pre ++ a ++ b) ++ c ++ r)
      by (rewrite <- !app_assoc; reflexivity)
  end.
  rewrite slice_mid.
  - rewrite get_put_int; [reflexivity|].
    pose proof (info_at_ok d i Hd Hi) as H. inversion H as [|? ? ? H']; subst. inversion H' as [|? ? ? H'']; subst.
    inversion H''; subst; assumption.
  - rewrite !app_length. unfold hd, hn, pre. rewrite !put_int_length.
    rewrite (flat_map_length _ 32) by (intros; apply put_info_length).
    rewrite firstn_length_le by lia. lia.
  - apply put_int_length.
Qed.

Definition data_offset (d : FilterData) (i : nat) : nat :=
  (8 + 32 * length (f_snaps d) + 8 * length (concat (firstn i (f_particles d))))%nat.

Lemma file_data o d i : storable d -> (i < length (f_snaps d))%nat ->
  slice (file_of o d) (data_offset d i) (8 * length (nth i (f_particles d) [])) =
  write_ints o 8 (nth i (f_particles d) []).
Proof.
  intros Hd Hi. unfold file_of. destruct Hd as (H1 & H2 & _).
  rewrite <- H2 at 3. rewrite firstn_all.
  rewrite (flat_map_nth _ (f_particles d) i []) by lia.
  rewrite !app_assoc. rewrite <- (app_assoc _ (write_ints o 8 (nth i (f_particles d) []))).
  rewrite slice_mid; [reflexivity| |apply write_ints_length].
  rewrite !app_length, !put_int_length.
  rewrite (flat_map_length _ 32) by (intros; apply put_info_length). rewrite map_length, seq_length.
  unfold data_offset.
  assert (forall l, length (flat_map (write_ints o 8) l) = (8 * length (concat l))%nat) as ->.
  { induction l; [reflexivity|]. cbn [flat_map concat]. rewrite !app_length, IHl, write_ints_length. lia. }
  lia.
Qed.

(** ** Truncated files *)
Lemma read_ints_any o n k old s : length old = k -> (n <> 0)%nat ->
  (exists xs, read_ints o n k old s = (xs, skipn (n * k) s) /\ length xs = k).
Proof.
  intros Ho Hn. unfold read_ints, read_full. destruct (Nat.leb_spec (n * k) (length s)).
  - eexists; split; [reflexivity|]. rewrite map_length. apply chunks_length.
  - rewrite skipn_all2 by lia. eauto.
Qed.

Lemma read_particles_ok o infos s : Forall (fun h => 0 <= h_len h) infos ->
  exists ps, read_particles o infos s = Some ps /\
    map (@List.length Z) ps = map (fun h => Z.to_nat (h_len h)) infos.
Proof.
  revert s; induction infos as [|h infos IH]; intros s H; cbn [read_particles]; [exists []; split; reflexivity|].
  inversion H; subst. rewrite (proj2 (Z.ltb_ge _ _)) by lia.
  destruct (read_ints_any o 8 (Z.to_nat (h_len h)) (repeat 0 (Z.to_nat (h_len h))) s) as (p & Hp & Hl);
    [apply repeat_length|lia|].
  rewrite Hp. destruct (IH (skipn (8 * Z.to_nat (h_len h)) s)) as (ps & -> & Hm); [assumption|].
  eexists; split; [reflexivity|]. cbn [map]. now rewrite Hl, Hm.
Qed.

Lemma firstn_app_cases {A} (k : nat) (a b : list A) :
  (length a <= k /\ firstn k (a ++ b) = a ++ firstn (k - length a) b)%nat
  \/ (k < length a /\ length (firstn k (a ++ b)) = k /\ firstn k (a ++ b) = firstn k a)%nat.
Proof.
  destruct (Nat.le_gt_cases (length a) k).
  - left; split; [assumption|]. rewrite firstn_app, firstn_all2 by lia. reflexivity.
  - right. split; [assumption|]. split; [rewrite firstn_length, app_length; lia|].
    rewrite firstn_app. replace (k - length a)%nat with 0%nat by lia. cbn [firstn]. apply app_nil_r.
Qed.

Lemma truncated_ok o d k : storable d -> exists d', read_filter (firstn k (file_of o d)) = Ok d' /\
  ((8 <= k)%nat -> length (f_snaps d') = length (f_snaps d)) /\
  ((8 + 32 * length (f_snaps d) <= k)%nat ->
     f_snaps d' = f_snaps d /\ f_ids d' = f_ids d /\
     map (@List.length Z) (f_particles d') = map (@List.length Z) (f_particles d)).
Proof.
  intros Hd. pose proof Hd as (H1 & H2 & H3 & H4 & H5 & H6). unfold file_of.
  set (infos := map (info_at d) (seq 0 (length (f_snaps d)))).
  assert (length infos = length (f_snaps d)) as Hlen by (unfold infos; rewrite map_length, seq_length; reflexivity).
  destruct (firstn_app_cases k (put_int o 4 (match o with BE => -1 | LE => 0 end))
     (put_int o 4 (Z.of_nat (length (f_snaps d))) ++ flat_map (put_info o) infos ++
      flat_map (write_ints o 8) (firstn (length (f_snaps d)) (f_particles d)))) as [[Hk ->]|[Hk [Hl _]]];
    rewrite put_int_length in Hk.
  2:{ eexists. split.
      - unfold read_filter, read_ints at 1. rewrite read_full_short by lia. reflexivity.
      - split; lia. }
  rewrite put_int_length, read_filter_file.
  destruct (firstn_app_cases (k - 4) (put_int o 4 (Z.of_nat (length (f_snaps d))))
     (flat_map (put_info o) infos ++ flat_map (write_ints o 8) (firstn (length (f_snaps d)) (f_particles d))))
     as [[Hk2 ->]|[Hk2 [Hl2 _]]]; rewrite put_int_length in Hk2.
  2:{ unfold read_ints at 1. rewrite read_full_short by lia. eexists. split; [reflexivity|].
      split; lia. }
  rewrite put_int_length. rewrite read_ints_one by now apply count_range. cbn [nth].
  rewrite (proj2 (Z.ltb_ge _ _)) by lia. rewrite Nat2Z.id.
  destruct (firstn_app_cases (k - 4 - 4) (flat_map (put_info o) infos)
    (flat_map (write_ints o 8) (firstn (length (f_snaps d)) (f_particles d)))) as [[Hk3 ->]|[Hk3 [Hl3 _]]];
    rewrite (flat_map_length _ 32) in * by (intros; apply put_info_length).
  - pose proof (fun s => read_info_spec o infos s (infos_ok d Hd)) as E. rewrite Hlen in E. rewrite E. clear E.
    destruct (read_particles_ok o infos (firstn (k - 4 - 4 - 32 * length infos)
       (flat_map (write_ints o 8) (firstn (length (f_snaps d)) (f_particles d))))) as (ps & -> & Hm).
    { apply Forall_forall. intros h Hh. apply in_map_iff in Hh as (i & <- & _). cbn [info_at h_len]. lia. }
    eexists. split; [reflexivity|]. cbn [f_snaps f_ids f_particles]. unfold infos in *. rewrite !map_length, seq_length. split; [reflexivity|].
    intros _. rewrite !map_map. split; [|split].
    + pose proof (map_nth_seq (fun x => x) (f_snaps d) 0) as E. rewrite map_id in E. exact E.
    + pose proof (map_nth_seq (fun x => x) (f_ids d) 0) as E. rewrite map_id in E. rewrite <- H1. exact E.
    + rewrite Hm, map_map. rewrite <- H2.
      rewrite <- (map_nth_seq (@List.length Z) (f_particles d) []). apply map_ext. intros i. cbn [info_at h_len]. apply Nat2Z.id.
  - unfold read_info. rewrite read_full_short by (rewrite Hlen in *; lia).
    set (z := {| h_id := 0; h_snap := 0; h_start := 0; h_len := 0 |}).
    destruct (read_particles_ok o (repeat z (length (f_snaps d))) []) as (ps & -> & Hm).
    { apply Forall_forall. intros h Hh. apply repeat_spec in Hh as ->. cbn. lia. }
    eexists. split; [reflexivity|]. cbn [f_snaps]. rewrite map_length, repeat_length. split; [reflexivity|lia].
Qed.
