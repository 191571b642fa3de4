(** * C200: the stages of a pipe read what the stage before them printed *)
From Verif Require Import GoBase GoBaseFacts LoopBase ConfigSpec CatalogModel CatalogSpec CatalogProofs CatalogProofs2 CatalogProofs3 CmdModel CmdProofs2 PipeModel Props_TreeRun Props_Cmd Props_ProfAng.
From Coq Require Import ZArith List Lia Bool.
Import List ListNotations.

(** ** Specification *)
Section Spec.
Variable F : Type.
Variable parseFloat : bytes -> option F.
Variable fmtFloat : F -> bytes.
Variable reread : F -> F.

(** Numbers are printed as single words that are read back as [reread] of the number (its first six digits). *)
Definition readable : Prop := forall x, word (fmtFloat x) /\ parseFloat (fmtFloat x) = Some (reread x).

(** A column of h machine integers; a table of h rows of w numbers. *)
Definition int_col (h : nat) (c : list Z) : Prop := length c = h /\ Forall (fun z => (int64_min <= z <= int64_max)%Z) c.
Definition grid {A} (h w : nat) (rows : list (list A)) : Prop := length rows = h /\ Forall (fun r => length r = w) rows.

(** The (ID, snapshot) rows that id mode keeps, each mult times. *)
Fixpoint kept (ids snaps : list Z) (exclude : list bool) (mult : nat) : list (Z * Z) :=
  match ids, snaps, exclude with
  | i :: ids', s :: snaps', e :: exclude' => (if e then [] else repeat (i, s) mult) ++ kept ids' snaps' exclude' mult
  | _, _, _ => []
  end.
End Spec.

(** ** Proofs *)
Lemma printed_table {F} (parseFloat : bytes -> option F) rows : Forall (fun p => (int64_min <= fst p <= int64_max)%Z /\ (int64_min <= snd p <= int64_max)%Z) rows ->
  table_is parseFloat (map printed rows) [0; 1]%Z [] [map fst rows; map snd rows] [].
Proof.
  intros H. split; [exists 2%nat; apply Forall_map; apply Forall_forall; reflexivity|]. split; [|constructor].
  constructor; [|constructor; [|constructor]]; unfold column_is; induction H as [|p ps [H1 H2] Hps IH]; cbn [map]; constructor; auto.
  - exists (itoa (fst p)). split; [lia|]. split; [reflexivity|]. now apply atoi_spec, atoi_itoa.
  - exists (itoa (snd p)). split; [lia|]. split; [reflexivity|]. now apply atoi_spec, atoi_itoa.
Qed.

Lemma id_lines_rows mult : forall (ps : list (Z * Z)) lines exclude, data_rows lines (map printed ps) -> length lines = length ps -> length exclude = length ps -> Forall (fun l => ~ In nl l) lines ->
  exists m, id_lines lines exclude mult = Some m /\ Forall (fun l => ~ In nl l) m /\ data_rows m (map printed (kept (map fst ps) (map snd ps) exclude mult)).
Proof.
  induction ps as [|p ps IH]; intros lines exclude H HL HE HN; destruct lines as [|l lines]; try discriminate; destruct exclude as [|e exclude]; try discriminate; cbn [id_lines map kept].
  { exists []. split; [reflexivity|]. split; constructor. }
  assert (Hlen : forall ls rows, data_rows ls rows -> (length rows <= length ls)%nat) by (clear; intros ls rows H; induction H; cbn [length]; lia).
  cbn [map] in H. inversion HN as [|? ? Hl Hls]; subst. inversion H as [|? ? ? Hb Hd E1 E2|? ? ? ? Hw Hne Hd E1 E2]; subst.
  { apply Hlen in Hd. cbn [length] in Hd. rewrite map_length in Hd. injection HL as HL. lia. }
  destruct (IH lines exclude Hd ltac:(now injection HL) ltac:(now injection HE) Hls) as (m & E & Hm & HD). rewrite E. eexists. split; [reflexivity|].
  destruct e; cbn [app]; [split; assumption|]. split.
  - apply Forall_app. split; [|exact Hm]. apply Forall_forall. intros x Hx. apply repeat_spec in Hx. now subst.
  - rewrite map_app. replace (map printed (repeat (fst p, snd p) mult)) with (repeat (printed p) mult) by (clear; induction mult; cbn [repeat map]; [reflexivity|now f_equal]).
    apply data_rows_repeat; [exact Hw|discriminate|exact HD].
Qed.

(** ** C200 *)

(** id | coord, id | tree: the next stage gets exactly the rows that id selected; if there are none, it ends with an error. *)
Theorem C200_id_next : forall F (parseFloat : bytes -> option F) fmtFloat ids snaps exclude mult,
  int_col (length ids) ids -> int_col (length ids) snaps -> length exclude = length ids ->
  let rows := kept ids snaps exclude mult in
  exists out, id_text F fmtFloat ids snaps exclude mult = Some out /\
    Parse F parseFloat (printLines out) [0; 1]%Z [] = Ok ([map fst rows; map snd rows], []) /\
    coord_input F parseFloat (printLines out) = match rows with [] => Err | _ => Ok (map fst rows, map snd rows) end.
Proof.
  intros F pf fmt ids snaps exclude mult [_ Hi] [Hs1 Hs] HE rows.
  assert (Eids : map fst (combine ids snaps) = ids) by (revert snaps Hs1 Hs rows; clear; induction ids as [|i ids IH]; intros [|s snaps] H1 H2 _; try discriminate; cbn [combine map fst]; [reflexivity|]; f_equal; inversion H2; apply IH; auto).
  assert (Esn : map snd (combine ids snaps) = snaps) by (revert snaps Hs1 Hs rows Eids; clear; induction ids as [|i ids IH]; intros [|s snaps] H1 H2 _ E; try discriminate; cbn [combine map snd]; [reflexivity|]; f_equal; inversion H2; injection E; auto).
  destruct (tree_lines fmt (combine ids snaps)) as (lines & EL & HL & Hnl & HD). rewrite Eids, Esn in EL.
  assert (LC : length (combine ids snaps) = length ids) by (rewrite combine_length; lia).
  destruct (id_lines_rows mult (combine ids snaps) lines exclude HD HL ltac:(lia) Hnl) as (m & EM & Hm & HDm). rewrite Eids, Esn in HDm. fold rows in HDm.
  destruct header_ok as (c & EC & Hcn & Hcw). exists (c :: m). unfold id_text. rewrite EL, EM, EC. split; [reflexivity|].
  assert (HP : Parse F pf (printLines (c :: m)) [0; 1]%Z [] = Ok ([map fst rows; map snd rows], [])).
  { apply (Parse_complete F pf) with (ls := (c :: m) ++ [[]]) (rows := map printed rows).
    - apply lines_of_print. constructor; assumption.
    - rewrite <- (app_nil_r (map printed rows)). apply data_rows_app; [now apply dr_blank|]. apply data_rows_blank. repeat constructor. apply line_words_iff. reflexivity.
    - unfold plain_first. destruct rows as [|r rows']; [exact I|]. cbn [map]. repeat constructor; apply itoa_word.
    - apply printed_table. unfold rows. clear - Hi Hs. revert snaps Hs exclude. induction Hi as [|i ids Hi Hids IH]; intros [|s snaps] Hs [|e exclude]; cbn [kept]; try constructor.
      inversion Hs; subst. apply Forall_app. split; [|now apply IH]. destruct e; [constructor|]. apply Forall_forall. intros x Hx. apply repeat_spec in Hx. subst x. cbn [fst snd]. tauto. }
  split; [exact HP|]. unfold coord_input. rewrite HP. destruct rows; reflexivity.
Qed.
Print Assumptions C200_id_next.

(** The text of a table of two integer columns and any float columns, in order, under any header. *)
Lemma table_back {F} (parseFloat : bytes -> option F) fmtFloat reread h hdr ids snaps cols : readable F parseFloat fmtFloat reread ->
  int_col h ids -> int_col h snaps -> Forall (fun c => length c = h) cols -> ~ In nl hdr -> line_words hdr [] ->
  exists lines, FormatCols F fmtFloat [ids; snaps] cols (map Z.of_nat (seq 0 (2 + length cols))) = Some lines /\
    forall k, (k <= length cols)%nat -> Parse F parseFloat (printLines (hdr :: lines)) [0; 1]%Z (map Z.of_nat (seq 2 k)) = Ok ([ids; snaps], map (map reread) (firstn k cols)).
Proof.
  intros HR HI HS HC Hn Hw. destruct (FormatCols_roundtrip F parseFloat fmtFloat reread [hdr] [ids; snaps] cols (map Z.of_nat (seq 0 (2 + length cols))) h) as (lines & EF & RB).
  - repeat constructor; solve [apply HI|apply HS].
  - eapply Forall_impl; [|exact HC]. intros c Lc. split; [exact Lc|]. apply Forall_forall. intros x _. apply HR.
  - rewrite map_length, seq_length. cbn [length]. lia.
  - discriminate.
  - apply Forall_map. apply Forall_forall. intros i Hi. apply in_seq in Hi. cbn [length]. lia.
  - repeat constructor; assumption.
  - exists lines. split; [exact EF|]. intros k Hk. specialize (RB [0; 1]%nat (seq 2 k) [ids; snaps] (firstn k cols)). apply RB.
    + exact (holds_seq (2 + length cols) 0 [ids; snaps] ltac:(cbn [length]; lia)).
    + pose proof (holds_seq (2 + length cols) 2 cols ltac:(lia)) as K. change (List.length [ids; snaps]) with 2%nat.
      assert (Es : seq 2 (length cols) = seq 2 k ++ seq (2 + k) (length cols - k)) by (rewrite <- seq_app; f_equal; lia).
      rewrite Es in K. apply F2_firstn in K. rewrite seq_length in K. exact K.
Qed.

(** coord | shell: the first four values that coord prints (X, Y, Z and R200m by default) are the positions and radii that shell uses, row by row. *)
Theorem C200_coord_shell : forall F (parseFloat : bytes -> option F) fmtFloat reread h ids snaps cols colNames, readable F parseFloat fmtFloat reread ->
  (0 < h)%nat -> int_col h ids -> int_col h snaps -> Forall (fun c => length c = h) cols -> (4 <= length cols)%nat -> Forall (fun n => ~ In nl n) colNames ->
  exists out, coord_text F fmtFloat ids snaps cols colNames = Some out /\
    shell_input F parseFloat (printLines out) = Ok (ids, snaps, map (map reread) (firstn 4 cols)) /\
    prof_input F parseFloat (printLines out) = Ok (ids, snaps, map (map reread) (firstn 4 cols)).
Proof.
  intros F pf fmt reread h ids snaps cols colNames HR Hh HI HS HC H4 HN. unfold coord_text.
  assert (EC : exists c, CommentString [lit "ID"; lit "Snapshot"] colNames (map Z.of_nat (seq 0 (2 + length colNames))) (repeat 1%Z (2 + length colNames)) = Some c).
  { unfold CommentString. set (names := [lit "ID"; lit "Snapshot"] ++ colNames). assert (LN : length names = (2 + length colNames)%nat) by reflexivity. rewrite <- LN. clearbody names. clear.
    assert (G : forall k s, (s + k <= length names)%nat -> exists r, orderNames names (repeat 1%Z (length names)) (map Z.of_nat (seq s k)) = Some r).
    { induction k as [|k IH]; intros s Hs; cbn [seq map orderNames]; [now eexists|]. destruct (Z.geb_spec (Z.of_nat s) (Z.of_nat (List.length names))) as [Hc|Hc]; [lia|].
      destruct (nthZ names (Z.of_nat s)) as [nm|] eqn:E1.
      2: { exfalso. unfold nthZ in E1. destruct (Z.ltb_spec (Z.of_nat s) 0); [lia|]. rewrite Nat2Z.id in E1. apply nth_error_None in E1. lia. }
      destruct (nthZ (repeat 1%Z (length names)) (Z.of_nat s)) as [sz|] eqn:E2.
      2: { exfalso. unfold nthZ in E2. destruct (Z.ltb_spec (Z.of_nat s) 0); [lia|]. rewrite Nat2Z.id in E2. apply nth_error_None in E2. rewrite repeat_length in E2. lia. }
      destruct (IH (S s) ltac:(lia)) as (r & ->). eexists. reflexivity. }
    destruct (G (length names) 0%nat ltac:(lia)) as (r & E). change (List.length names) with (length names). rewrite E. eexists. reflexivity. }
  destruct EC as (c & EC).
  assert (Hc : ~ In nl c /\ line_words c []).
  { eapply CommentString_is_comment; [|exact EC]. apply Forall_app. split; [|exact HN]. repeat constructor; vm_compute; intuition discriminate. }
  destruct (table_back pf fmt reread h c ids snaps cols HR HI HS HC (proj1 Hc) (proj2 Hc)) as (lines & EF & RB).
  change (List.length cols) with (length cols). change (List.length colNames) with (length colNames). rewrite EF, EC. exists (c :: lines). split; [reflexivity|].
  pose proof (RB 4%nat H4) as E. change (map Z.of_nat (seq 2 4)) with [2; 3; 4; 5]%Z in E. unfold shell_input, prof_input. rewrite E. split; [|reflexivity].
  destruct HI as [LI _]. change (List.length ids) with (length ids). rewrite LI. destruct h; [lia|reflexivity].
Qed.
Print Assumptions C200_coord_shell.

Lemma shell_header n : exists c, CommentString [lit "ID"; lit "Snapshot"] [lit "X [cMpc/h]"; lit "Y [cMpc/h]"; lit "Z [cMpc/h]"; lit "R200m [cMpc/h]"; lit "P_ijk"]
  [0; 1; 2; 3; 4; 5; 6]%Z [1; 1; 1; 1; 1; 1; n]%Z = Some c /\ ~ In nl c /\ line_words c [].
Proof.
  destruct (CommentString _ _ _ [1; 1; 1; 1; 1; 1; n]%Z) as [c|] eqn:E; [|discriminate]. exists c. split; [reflexivity|].
  eapply CommentString_is_comment; [|exact E]. repeat constructor; vm_compute; intuition discriminate.
Qed.

Lemma shell_text_back {F} (zero : F) (parseFloat : bytes -> option F) fmtFloat reread h n ids snaps coords out : readable F parseFloat fmtFloat reread ->
  (0 < h)%nat -> int_col h ids -> int_col h snaps -> grid 4 h coords -> grid h n out ->
  exists text t, shell_text F zero fmtFloat ids snaps coords out = Some text /\ transpose zero out = Some t /\ length t = n /\ Forall (fun c => length c = h) t /\
    (forall k, (k <= 4 + n)%nat -> Parse F parseFloat (printLines text) [0; 1]%Z (map Z.of_nat (seq 2 k)) = Ok ([ids; snaps], map (map reread) (firstn k (coords ++ t)))).
Proof.
  intros HR Hh HI HS [L4 HC] [Lo Ho]. destruct out as [|r0 out'] eqn:Eo; [cbn in Lo; lia|]. rewrite <- Eo in *.
  assert (L0 : length r0 = n) by (subst out; now inversion Ho). assert (Hne : out <> []) by (subst out; discriminate).
  destruct (C62_transpose F zero out n Hne Ho) as (t & Et & Lt & Rt & _ & _). rewrite Lo in Rt. destruct (shell_header (Z.of_nat n)) as (c & EC & Hn & Hw).
  destruct (table_back parseFloat fmtFloat reread h c ids snaps (coords ++ t) HR HI HS) as (lines & EF & RB); [now apply Forall_app|assumption|assumption|].
  rewrite app_length, L4, Lt in EF, RB. exists (c :: lines), t. split; [|split; [exact Et|split; [exact Lt|split; [exact Rt|exact RB]]]].
  unfold shell_text. rewrite Eo at 1. rewrite Et. change (List.length r0) with (length r0). rewrite L0. change (2 + 4 + n)%nat with (2 + (4 + n))%nat. rewrite EF, EC. reflexivity.
Qed.

(** Transposing what was transposed and read back gives the rows back. *)
Lemma transpose_back {A} (z : A) (f : A -> A) out t n : out <> [] -> (0 < n)%nat -> Forall (fun r => length r = n) out -> transpose z out = Some t ->
  transpose z (map (map f) t) = Some (map (map f) out).
Proof.
  intros Hne Hn Ho Et. destruct (transpose_ok z out n Hne Ho) as (t' & E & Lt & Rt & V). rewrite Et in E. injection E as <-.
  assert (Hnt : map (map f) t <> []) by (destruct t; [cbn in Lt; lia|discriminate]).
  assert (Rt' : rect (length out) (map (map f) t)) by (unfold rect in *; apply Forall_map; eapply Forall_impl; [|exact Rt]; intros c Hc; now rewrite map_length).
  destruct (transpose_ok z (map (map f) t) (length out) Hnt Rt') as (u & Eu & Lu & Ru & Vu). rewrite Eu. f_equal. rewrite map_length, Lt in Ru, Vu.
  apply nth_ext with (d := []) (d' := []); [now rewrite map_length|]. intros y Hy. rewrite Lu in Hy.
  assert (Ly : length (nth y u []) = n) by (unfold rect in Ru; rewrite Forall_forall in Ru; apply Ru, nth_In; lia).
  change (@nil A) with (map f []) at 2. rewrite map_nth. assert (Lo : length (nth y out []) = n) by (rewrite Forall_forall in Ho; apply Ho, nth_In; lia).
  apply nth_ext with (d := z) (d' := f z); [now rewrite map_length, Lo|]. intros x Hx. rewrite Ly in Hx. rewrite Vu by lia. rewrite map_nth.
  change (@nil A) with (map f []). rewrite map_nth. assert (Lc : length (nth x t []) = length out) by (unfold rect in Rt; rewrite Forall_forall in Rt; apply Rt, nth_In; lia).
  rewrite (nth_indep _ z (f z)) by (rewrite map_length; lia). rewrite map_nth. f_equal. apply V; lia.
Qed.

Lemma split4 {A} (a b : list A) : length a = 4%nat -> firstn 4 (a ++ b) = a /\ skipn 4 (a ++ b) = b.
Proof. intros H. do 4 (destruct a as [|? a]; [discriminate|]). destruct a; [|discriminate]. split; reflexivity. Qed.

Lemma stats_cols o : map (fun i => Z.of_nat (i + 2)) (seq 0 (4 + 2 * o * o)) = map Z.of_nat (seq 2 (4 + 2 * o * o)).
Proof. rewrite <- (seq_shift _ 1), <- (seq_shift _ 0), !map_map. apply map_ext. intros i. f_equal. lia. Qed.

(** shell | stats with the same Order: stats gets the ids, snapshots, positions, radii and the coefficients of every row, to the printed digits. *)
Theorem C200_shell_stats : forall F (zero : F) (parseFloat : bytes -> option F) fmtFloat reread h o ids snaps coords out, readable F parseFloat fmtFloat reread ->
  (0 < h)%nat -> (0 < o)%nat -> int_col h ids -> int_col h snaps -> grid 4 h coords -> grid h (2 * o * o) out ->
  exists text, shell_text F zero fmtFloat ids snaps coords out = Some text /\
    stats_input F zero parseFloat o (printLines text) = Ok (ids, snaps, map (map reread) coords, map (map reread) out).
Proof.
  intros F zero pf fmt reread h o ids snaps coords out HR Hh Ho HI HS HC HO.
  destruct (shell_text_back zero pf fmt reread h _ ids snaps coords out HR Hh HI HS HC HO) as (text & t & E & Et & Lt & Rt & RB). exists text. split; [exact E|].
  unfold stats_input. rewrite stats_cols, (RB _ (Nat.le_refl _)). destruct HC as [L4 _]. rewrite firstn_all2 by (rewrite app_length, L4, Lt; lia).
  rewrite map_app. destruct (split4 (map (map reread) coords) (map (map reread) t)) as [S1 S2]; [now rewrite map_length|]. rewrite S1, S2.
  destruct HO as [Lo Hw]. rewrite (transpose_back zero reread out t (2 * o * o)); [|intros ->; cbn in Lo; lia|nia|exact Hw|exact Et].
  destruct HS as [LS _]. destruct snaps; [cbn in LS; lia|reflexivity].
Qed.
Print Assumptions C200_shell_stats.

(** The whole of shell mode in front of stats: whatever the catalogue, if the rows are computed, stats gets them. *)
Theorem C200_shell_run_stats : forall F (zero : F) (parseFloat : bytes -> option F) fmtFloat reread compute o stdin ls rows ids snaps coords out, readable F parseFloat fmtFloat reread ->
  lines_of stdin ls -> data_rows ls rows -> plain_first rows -> table_is parseFloat rows [0; 1]%Z [2; 3; 4; 5]%Z [ids; snaps] coords -> rows <> [] -> (0 < o)%nat ->
  compute ids snaps coords = Ok out -> grid (length ids) (2 * o * o) out ->
  exists text, shell_run_text F zero parseFloat fmtFloat compute stdin = Ok text /\
    stats_input F zero parseFloat o (printLines text) = Ok (ids, snaps, map (map reread) coords, map (map reread) out).
Proof.
  intros F zero pf fmt reread compute o stdin ls rows ids snaps coords out HR HL HD HP HT Hne Ho HC HO.
  pose proof (Parse_complete F pf stdin ls rows _ _ _ _ HL HD HP HT) as EP. destruct HT as (_ & HI & HF).
  pose proof (int_columns _ _ _ HI) as LI. pose proof (columns_length _ _ _ _ HF) as LF. pose proof (F2_length _ _ _ HF) as LN. cbn [length] in LN.
  inversion LI as [|? ? [L1 B1] LI']; subst. inversion LI' as [|? ? [L2 B2] _]; subst.
  assert (Hh : (0 < length ids)%nat) by (rewrite L1; destruct rows; [congruence|cbn; lia]).
  destruct (C200_shell_stats F zero pf fmt reread (length ids) o ids snaps coords out HR Hh Ho) as (text & E & ES).
  - now split. - split; [congruence|assumption]. - split; [now rewrite <- LN|]. rewrite L1. exact LF. - exact HO.
  - exists text. split; [|exact ES]. unfold shell_run_text, shell_input. rewrite EP. change (List.length ids) with (length ids). destruct (Nat.eqb_spec (length ids) 0); [lia|]. rewrite HC, E. reflexivity.
Qed.
Print Assumptions C200_shell_run_stats.

(** If the rows are longer than stats' Order needs (a larger Order in shell's configuration, or PercentileProfile), stats does not notice: it uses the first 2 * Order^2 numbers as the
    coefficients of a shell of its own Order. *)
Theorem C200_other_order_refuted : forall F (zero : F) (parseFloat : bytes -> option F) fmtFloat reread h n o ids snaps coords out, readable F parseFloat fmtFloat reread ->
  (0 < h)%nat -> (0 < o)%nat -> (2 * o * o < n)%nat -> int_col h ids -> int_col h snaps -> grid 4 h coords -> grid h n out ->
  exists text, shell_text F zero fmtFloat ids snaps coords out = Some text /\
    stats_input F zero parseFloat o (printLines text) = Ok (ids, snaps, map (map reread) coords, map (fun r => map reread (firstn (2 * o * o) r)) out).
Proof.
  intros F zero pf fmt reread h n o ids snaps coords out HR Hh Ho Hn HI HS HC HO.
  destruct (shell_text_back zero pf fmt reread h _ ids snaps coords out HR Hh HI HS HC HO) as (text & t & E & Et & Lt & Rt & RB). exists text. split; [exact E|].
  unfold stats_input. rewrite stats_cols, (RB (4 + 2 * o * o)%nat) by lia. destruct HC as [L4 _]. rewrite firstn_app, L4. rewrite (firstn_all2 coords) by lia. replace (4 + 2 * o * o - 4)%nat with (2 * o * o)%nat by lia.
  rewrite map_app. destruct (split4 (map (map reread) coords) (map (map reread) (firstn (2 * o * o) t))) as [S1 S2]; [now rewrite map_length|]. rewrite S1, S2.
  destruct HO as [Lo Hw]. assert (Hne : out <> []) by (intros ->; cbn in Lo; lia). set (q := (2 * o * o)%nat) in *.
  assert (Hq : (0 < q)%nat) by (unfold q; nia). clearbody q. set (out' := map (firstn q) out).
  assert (Ho' : Forall (fun r => length r = q) out') by (apply Forall_map; eapply Forall_impl; [|exact Hw]; intros r Hr; cbv beta in Hr |- *; rewrite firstn_length, Hr; apply Nat.min_l; lia).
  assert (Hne' : out' <> []) by (unfold out'; destruct out; [congruence|discriminate]).
  assert (Et' : transpose zero out' = Some (firstn q t)).
  { destruct (transpose_ok zero out n Hne Hw) as (t1 & E1 & L1 & R1 & V1). rewrite Et in E1. injection E1 as <-.
    destruct (transpose_ok zero out' q Hne' Ho') as (t2 & E2 & L2 & R2 & V2). rewrite E2. f_equal.
    assert (LO : length out' = length out) by (unfold out'; apply map_length). rewrite LO in R2, V2.
    apply nth_ext with (d := []) (d' := []); [rewrite firstn_length; lia|]. intros x Hx. rewrite L2 in Hx.
    assert (N1 : nth x (firstn q t) [] = nth x t []) by (clear - Hx; revert q Hx t; induction x as [|x IH]; intros [|q] Hq [|c t]; try lia; cbn [firstn nth]; try reflexivity; apply IH; lia).
    rewrite N1. assert (C1 : length (nth x t []) = length out) by (unfold rect in R1; rewrite Forall_forall in R1; apply R1, nth_In; lia).
    assert (C2 : length (nth x t2 []) = length out) by (unfold rect in R2; rewrite Forall_forall in R2; apply R2, nth_In; lia).
    apply nth_ext with (d := zero) (d' := zero); [lia|]. intros y Hy. rewrite C2 in Hy. rewrite V2, V1 by lia. unfold out'.
    rewrite (nth_indep (map (firstn q) out) [] (firstn q [])) by (rewrite map_length; lia). rewrite map_nth.
    revert Hx. generalize (nth y out []). clear. intros l. revert q l. induction x as [|x IH]; intros [|q] [|c l] Hq; try lia; cbn [firstn nth]; try reflexivity. apply IH; lia. }
  rewrite (transpose_back zero reread out' (firstn q t) q Hne' Hq Ho' Et'). unfold out'. rewrite map_map. destruct HS as [LS _]. destruct snaps; [cbn in LS; lia|reflexivity].
Qed.
Print Assumptions C200_other_order_refuted.

(** If the rows are shorter, stats ends with an error. *)
Theorem C200_short_rows : forall F (zero : F) (parseFloat : bytes -> option F) o text ls rows w,
  lines_of text ls -> data_rows ls rows -> plain_first rows -> rows <> [] -> (forall r, In r rows -> length r = w) -> (w < 6 + 2 * o * o)%nat ->
  stats_input F zero parseFloat o text = Err.
Proof.
  intros F zero pf o text ls rows w HL HD HP Hne HW Hw. unfold stats_input.
  destruct (Props_Catalog.C10_malformed_is_an_error_partial F pf text ls rows [0; 1]%Z (map (fun i => Z.of_nat (i + 2)) (seq 0 (4 + 2 * o * o))) HL HD HP) as [_ HE].
  - apply Forall_app. split; [repeat constructor; lia|]. apply Forall_map, Forall_forall. intros; lia.
  - intros r0 r rest -> Hin. rewrite (HW r0) by (left; auto). rewrite (HW r) by auto. lia.
  - rewrite (proj2 HE); [reflexivity|]. intros (ics & fcs & _ & _ & HF). set (q := (2 * o * o)%nat) in *. clearbody q. replace (4 + q)%nat with ((3 + q) + 1)%nat in HF by lia. rewrite seq_app, map_app in HF.
    apply Forall2_app_inv_l in HF. destruct HF as (m1 & m2 & _ & HF & _). cbn [seq map] in HF. inversion HF as [|k c ks cs Hk _]; subst. destruct rows as [|r0 rows]; [congruence|].
    unfold column_is in Hk. inversion Hk as [|? ? ? ? (v & _ & Hv & _) _]; subst. apply some_lt in Hv. rewrite (HW r0) in Hv by (left; auto). lia.
Qed.
Print Assumptions C200_short_rows.

(** A table without rows (all halos excluded by an earlier stage) is an error in coord and shell, but a run-time panic in stats. *)
Theorem C200_no_rows_refuted : forall F (zero : F) (parseFloat : bytes -> option F) o text ls, (0 < o)%nat -> lines_of text ls -> data_rows ls [] ->
  coord_input F parseFloat text = Err /\ shell_input F parseFloat text = Err /\ stats_input F zero parseFloat o text = Panic.
Proof.
  intros F zero pf o text ls Ho HL HD.
  assert (E : forall ic fc, Parse F pf text ic fc = Ok (repeat [] (length ic), repeat [] (length fc))).
  { intros ic fc. apply (Parse_complete F pf text ls []); [exact HL|exact HD|exact I|]. split; [exists 0%nat; constructor|].
    split; [induction ic|induction fc]; cbn [length repeat]; constructor; auto; constructor. }
  unfold coord_input, shell_input, stats_input. rewrite !E. split; [reflexivity|]. split; [reflexivity|]. cbn [length repeat]. rewrite map_length, seq_length.
  destruct (transpose zero _) as [c|]; reflexivity.
Qed.
Print Assumptions C200_no_rows_refuted.

(** The claims are about real tables: one halo, a shell of order 1, read back and (with Order 2 in shell and Order 1 in stats) misread: only the first two of eight coefficients are used (C187_nonvacuous and the example after it show what that does to a shell). *)
Definition two_fmt (b : bool) : bytes := if b then lit "1" else lit "0".
Definition two_parse (s : bytes) : option bool := if beq s (lit "1") then Some true else if beq s (lit "0") then Some false else None.
Lemma two_readable : readable bool two_parse two_fmt (fun b => b).
Proof. intros [|]; (split; [|reflexivity]); [exact (itoa_word 1)|exact (itoa_word 0)]. Qed.

Example C200_nonvacuous :
  (exists out, id_text bool two_fmt [7; 8; 9]%Z [3; 3; 3]%Z [false; true; false] 2 = Some out /\ coord_input bool two_parse (printLines out) = Ok ([7; 7; 9; 9], [3; 3; 3; 3])%Z) /\
  (exists text, shell_text bool false two_fmt [7; 8]%Z [3; 4]%Z [[true; false]; [false; true]; [true; true]; [false; false]] [[true; false]; [false; true]] = Some text /\
     stats_input bool false two_parse 1 (printLines text) = Ok ([7; 8]%Z, [3; 4]%Z, [[true; false]; [false; true]; [true; true]; [false; false]], [[true; false]; [false; true]])) /\
  (exists text, shell_text bool false two_fmt [7]%Z [3]%Z [[true]; [true]; [true]; [true]] [[true; false; true; false; false; true; false; false]] = Some text /\
     stats_input bool false two_parse 1 (printLines text) = Ok ([7]%Z, [3]%Z, [[true]; [true]; [true]; [true]], [[true; false]])).
Proof.
  split; [|split].
  - destruct (C200_id_next bool two_parse two_fmt [7; 8; 9]%Z [3; 3; 3]%Z [false; true; false] 2) as (out & E & _ & E2).
    + split; [reflexivity|repeat constructor; unfold int64_min, int64_max; lia]. + split; [reflexivity|repeat constructor; unfold int64_min, int64_max; lia]. + reflexivity.
    + exists out. split; [exact E|]. rewrite E2. reflexivity.
  - apply (C200_shell_stats bool false two_parse two_fmt (fun b => b) 2 1); try lia; try (split; [reflexivity|repeat constructor; unfold int64_min, int64_max; lia]). exact two_readable.
  - apply (C200_other_order_refuted bool false two_parse two_fmt (fun b => b) 1 8 1); try lia; try (split; [reflexivity|repeat constructor; unfold int64_min, int64_max; lia]). exact two_readable.
Qed.
