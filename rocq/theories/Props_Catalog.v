(** * Properties C08-C10: catalog text (cmd/catalog/catalog.go). *)
From Verif Require Import GoBase GoBaseFacts ConfigSpec CatalogModel CatalogSpec CatalogProofs CatalogProofs2 CatalogProofs3.
Local Open Scope list_scope.

(** C08. Parse succeeds exactly on rectangular tables and returns exactly the requested columns. *)
Theorem C08_columns_are_exact :
  forall (F : Type) (parseFloat : bytes -> option F) (text : bytes) (ls : list bytes) (rows : list (list bytes))
         (ic fc : list Z) (ics : list (list Z)) (fcs : list (list F)),
  lines_of text ls -> data_rows ls rows -> plain_first rows ->
  (Parse F parseFloat text ic fc = Ok (ics, fcs) <-> table_is parseFloat rows ic fc ics fcs).
Proof.
  intros F pf text ls rows ic fc ics fcs L D P. split.
  - exact (Parse_sound F pf text ls rows ic fc ics fcs L D).
  - exact (Parse_complete F pf text ls rows ic fc ics fcs L D P).
Qed.
Print Assumptions C08_columns_are_exact.

(** Whatever the text (tabs included), a successful Parse returned the columns of its rows. *)
Theorem C08_success_is_always_exact :
  forall (F : Type) (parseFloat : bytes -> option F) (text : bytes) (ls : list bytes) (rows : list (list bytes))
         (ic fc : list Z) (ics : list (list Z)) (fcs : list (list F)),
  lines_of text ls -> data_rows ls rows ->
  Parse F parseFloat text ic fc = Ok (ics, fcs) -> table_is parseFloat rows ic fc ics fcs.
Proof. exact Parse_sound. Qed.
Print Assumptions C08_success_is_always_exact.

(** Comments, blank lines and spacing never matter (outcome included: values, error or panic). *)
Theorem C08_layout_is_irrelevant :
  forall (F : Type) (parseFloat : bytes -> option F) (t1 t2 : bytes) (ls1 ls2 : list bytes) (rows : list (list bytes)) (ic fc : list Z),
  lines_of t1 ls1 -> lines_of t2 ls2 -> data_rows ls1 rows -> data_rows ls2 rows ->
  Parse F parseFloat t1 ic fc = Parse F parseFloat t2 ic fc.
Proof. exact Parse_layout. Qed.
Print Assumptions C08_layout_is_irrelevant.

(** Every text has lines and rows, so the theorems above cover every input. *)
Theorem C08_every_text_has_rows : forall text, exists ls rows, lines_of text ls /\ data_rows ls rows.
Proof.
  intros text. exists (split_byte nl text), (rowsf (split_byte nl text)). split.
  - apply ConfigProofs.lines_of_split. reflexivity.
  - apply data_rows_iff. reflexivity.
Qed.
Print Assumptions C08_every_text_has_rows.

Definition natFloat (s : bytes) : option nat := match atoi s with Some z => Some (Z.to_nat z) | None => None end.
Example C08_nonvacuous :
  Parse nat natFloat (lit "# hdr" ++ [nl] ++ lit " 1  20 3 # c" ++ [nl] ++ [nl] ++ lit "4 50 6") [1; 0]%Z [2]%Z
  = Ok ([[20; 50]; [1; 4]]%Z, [[3; 6]]).
Proof. reflexivity. Qed.

(** C09. *)
Theorem C09_output_reads_back :
  forall (F : Type) (parseFloat : bytes -> option F) (fmtFloat : F -> bytes) (reread : F -> F)
         (intNames floatNames : list bytes) (sizes : list Z) (header : bytes)
         (intCols : list (list Z)) (floatCols : list (list F)) (order : list Z) (h : nat),
  Forall (fun c => List.length c = h /\ Forall (fun z => (int64_min <= z <= int64_max)%Z) c) intCols ->
  Forall (fun c => List.length c = h /\
                   Forall (fun x => word (fmtFloat x) /\ parseFloat (fmtFloat x) = Some (reread x)) c) floatCols ->
  List.length order <= List.length intCols + List.length floatCols -> order <> [] ->
  Forall (fun k => (0 <= k < Z.of_nat (List.length intCols + List.length floatCols))%Z) order ->
  Forall (fun n => ~ In nl n) (intNames ++ floatNames) ->
  CommentString intNames floatNames order sizes = Some header ->
  exists lines, FormatCols F fmtFloat intCols floatCols order = Some lines /\
  forall ps qs ics fcs,
    Forall2 (holds order 0 intCols) ps ics -> Forall2 (holds order (List.length intCols) floatCols) qs fcs ->
    Parse F parseFloat (printLines (header :: lines)) (map Z.of_nat ps) (map Z.of_nat qs)
      = Ok (ics, map (map reread) fcs) /\
    Parse F parseFloat (printLines lines) (map Z.of_nat ps) (map Z.of_nat qs) = Ok (ics, map (map reread) fcs).
Proof.
  intros F pf ff rr iN fN sizes header iC fC order h HI HF HO HO0 HR HN HC.
  destruct (FormatCols_roundtrip F pf ff rr [header] iC fC order h HI HF HO HO0 HR) as (lines & E & R).
  { constructor; [|constructor]. eapply CommentString_is_comment; eassumption. }
  destruct (FormatCols_roundtrip F pf ff rr [] iC fC order h HI HF HO HO0 HR) as (lines' & E' & R'); [constructor|].
  assert (lines' = lines) by congruence. subst lines'.
  exists lines. split; [exact E|]. intros ps qs ics fcs H1 H2. split; [exact (R ps qs ics fcs H1 H2)|exact (R' ps qs ics fcs H1 H2)].
Qed.
Print Assumptions C09_output_reads_back.

(** The integer table with the identity order and no floats: the literal wording of C09. *)
Theorem C09_integer_tables :
  forall (intCols : list (list Z)) (h : nat), intCols <> [] ->
  Forall (fun c => List.length c = h /\ Forall (fun z => (int64_min <= z <= int64_max)%Z) c) intCols ->
  let ids := map Z.of_nat (seq 0 (List.length intCols)) in
  exists lines, FormatCols nat (fun _ => []) intCols [] ids = Some lines /\
    Parse nat natFloat (printLines lines) ids [] = Ok (intCols, []).
Proof.
  intros cols h Hne HI ids.
  destruct (FormatCols_roundtrip nat natFloat (fun _ => []) (fun x => x) [] cols [] ids h HI) as (lines & E & R).
  - constructor.
  - unfold ids. rewrite map_length, seq_length. lia.
  - unfold ids. destruct cols; [congruence|discriminate].
  - unfold ids. apply Forall_map. apply Forall_forall. intros i Hi. apply in_seq in Hi. cbn [List.length] in *. lia.
  - constructor.
  - exists lines. split; [exact E|]. apply (R (seq 0 (List.length cols)) [] cols []); [|constructor].
    apply Forall2_nth. split; [apply seq_length|]. intros i p c Hp Hc. exists i. split; [|exact Hc].
    assert (i < List.length cols) by (apply nth_error_Some; congruence).
    rewrite nth_error_seq in Hp by assumption. inversion Hp; subst p.
    unfold ids. rewrite nth_error_map, nth_error_seq by assumption. reflexivity.
Qed.
Print Assumptions C09_integer_tables.

Example C09_nonvacuous :
  FormatCols nat (fun n => itoa (Z.of_nat n)) [[1; -20]; [300; 4]]%Z [[5; 66]] [2; 0; 1]%Z
  = Some [lit " 5   1 300"; lit "66 -20   4"].
Proof. reflexivity. Qed.

(** C10. False as stated: a later line with more fields than the first one makes Parse panic, as does a negative
    column index; a tab in the first line makes a good file fail. *)
Theorem C10_extra_field_panics_refuted :
  exists text, Parse nat natFloat text [0]%Z [] = Panic.
Proof. exists (lit "1 2" ++ [nl] ++ lit "3 4 5"). reflexivity. Qed.
Print Assumptions C10_extra_field_panics_refuted.

Theorem C10_every_long_row_panics_refuted :
  forall (F : Type) (parseFloat : bytes -> option F) (text : bytes) (ls : list bytes) (r0 : list bytes)
         (good : list (list bytes)) (r : list bytes) (rest : list (list bytes)) (ic fc : list Z) ics fcs,
  lines_of text ls -> data_rows ls (r0 :: good ++ r :: rest) -> Forall plain r0 ->
  table_is parseFloat (r0 :: good) ic fc ics fcs -> List.length r0 < List.length r ->
  Parse F parseFloat text ic fc = Panic.
Proof. exact Parse_panics_on_long_row. Qed.
Print Assumptions C10_every_long_row_panics_refuted.

Theorem C10_negative_column_panics_refuted : exists text, Parse nat natFloat text [-1]%Z [] = Panic.
Proof. exists (lit "1 2"). reflexivity. Qed.
Print Assumptions C10_negative_column_panics_refuted.

(** The part that holds: no row longer than the first and no negative column index => never a panic, and an error
    exactly when the rows are not a table with the requested columns. Missing from the full C10: longer rows and
    negative indices (they panic), and identifying the line. *)
Theorem C10_malformed_is_an_error_partial :
  forall (F : Type) (parseFloat : bytes -> option F) (text : bytes) (ls : list bytes) (rows : list (list bytes)) (ic fc : list Z),
  lines_of text ls -> data_rows ls rows -> plain_first rows ->
  Forall (fun i => (0 <= i)%Z) (ic ++ fc) ->
  (forall r0 r rest, rows = r0 :: rest -> In r rows -> List.length r <= List.length r0) ->
  Parse F parseFloat text ic fc <> Panic /\
  (Parse F parseFloat text ic fc = Err <-> ~ exists ics fcs, table_is parseFloat rows ic fc ics fcs).
Proof. exact Parse_errors. Qed.
Print Assumptions C10_malformed_is_an_error_partial.

Example C10_nonvacuous : Parse nat natFloat (lit "1 2" ++ [nl] ++ lit "3") [0]%Z [] = Err
  /\ Parse nat natFloat (lit "1 2" ++ [nl] ++ lit "x 4") [0]%Z [] = Err
  /\ Parse nat natFloat (lit "1 2") [2]%Z [] = Err.
Proof. repeat split; reflexivity. Qed.
