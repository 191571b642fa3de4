(** * C199: a catalogue is read as a whole. *)
From Verif Require Import GoBase GoBaseFacts ConfigSpec CatalogModel CatalogSpec CatalogProofs CatFileModel Props_Catalog.
From Coq Require Import Lia.
Import List ListNotations.
Local Open Scope list_scope.

Lemma read_whole : forall chunks n, n = List.length (concat chunks) -> read_at_least n chunks = concat chunks.
Proof.
  induction chunks as [|c rest IH]; intros n E; cbn [concat] in *.
  - subst n. reflexivity.
  - rewrite app_length in E. destruct n as [|n'].
    + cbn [read_at_least]. destruct c; [|discriminate]. cbn [List.length app] in *. destruct (concat rest); [reflexivity|discriminate].
    + remember (S n') as n. assert (En : read_at_least n (c :: rest) = firstn n c ++ read_at_least (n - List.length c) rest) by (rewrite Heqn; reflexivity).
      rewrite En, firstn_all2 by lia. rewrite (IH (n - List.length c)) by lia. reflexivity.
Qed.
(** A file whose size is the one that was reported gives, in whatever chunks it is read, exactly the columns of its text, and an error exactly if its text is
    not a table with these columns (under the conditions of C10: no row longer than the first, no negative column). Missing: a file that is cut short or fails
    while it is read. *)
Theorem C199_file_partial : forall (F : Type) (parseFloat : bytes -> option F) chunks e ic fc ls rows,
  lines_of (concat chunks) ls -> data_rows ls rows -> plain_first rows -> Forall (fun i => (0 <= i)%Z) (ic ++ fc) ->
  (forall r0 r rest, rows = r0 :: rest -> In r rows -> List.length r <= List.length r0) ->
  let got := ReadFile F parseFloat (Some (List.length (concat chunks), {| st_chunks := chunks; st_end := e |})) ic fc in
  (forall ics fcs, got = Ok (ics, fcs) <-> table_is parseFloat rows ic fc ics fcs) /\ (got = Err <-> ~ exists ics fcs, table_is parseFloat rows ic fc ics fcs) /\ got <> Panic.
Proof.
  intros F pf chunks e ic fc ls rows L D P Hi Hr got.
  assert (E : got = Parse F pf (concat chunks) ic fc).
  { unfold got, ReadFile. cbn [st_chunks]. rewrite read_whole by reflexivity. destruct (Parse F pf (concat chunks) ic fc); reflexivity. }
  rewrite E. split; [intros; exact (C08_columns_are_exact F pf _ ls rows ic fc ics fcs L D P)|].
  destruct (C10_malformed_is_an_error_partial F pf _ ls rows ic fc L D P Hi Hr) as (A & B). split; [exact B|exact A].
Qed.
(** The standard input: the same, and a failing read is an error. *)
Theorem C199_stdin : forall (F : Type) (parseFloat : bytes -> option F) chunks e ic fc ls rows,
  lines_of (concat chunks) ls -> data_rows ls rows -> plain_first rows -> Forall (fun i => (0 <= i)%Z) (ic ++ fc) ->
  (forall r0 r rest, rows = r0 :: rest -> In r rows -> List.length r <= List.length r0) ->
  let got := ReadStdin F parseFloat {| st_chunks := chunks; st_end := e |} ic fc in
  (forall ics fcs, got = Ok (ics, fcs) <-> e = EndOfFile /\ table_is parseFloat rows ic fc ics fcs) /\ (e = ReadError -> got = Err) /\ got <> Panic.
Proof.
  intros F pf chunks e ic fc ls rows L D P Hi Hr got. unfold got, ReadStdin, read_all. cbn [st_chunks st_end]. destruct e.
  - destruct (C10_malformed_is_an_error_partial F pf _ ls rows ic fc L D P Hi Hr) as (A & B). pose proof (fun ics fcs => C08_columns_are_exact F pf _ ls rows ic fc ics fcs L D P) as C.
    destruct (Parse F pf (concat chunks) ic fc) as [r| |]; (split; [|split; [discriminate|congruence]]); intros ics fcs; rewrite <- C; split; try discriminate; intros H; try (split; [reflexivity|exact H]); destruct H as (_ & H); (exact H || discriminate).
  - split; [|split; [reflexivity|discriminate]]. intros ics fcs. split; [discriminate|]. intros (H & _). discriminate.
Qed.
Print Assumptions C199_file_partial.
Print Assumptions C199_stdin.

(** A read that fails, or a file that is cut short after its size was reported, is not noticed: the rows that did arrive are returned as the whole table. *)
Theorem C199_failing_refuted : exists size chunks ic, let s := {| st_chunks := chunks; st_end := ReadError |} in
  (List.length (concat chunks) < size)%nat /\ ReadFile nat natFloat (Some (size, s)) ic [] = Ok ([[1; 2]]%Z, []) /\ ReadStdin nat natFloat s ic [] = Err.
Proof. exists 12, [lit "1 a" ++ [nl]; lit "2 b"], [0]%Z. cbv zeta. split; [cbn; lia|]. split; reflexivity. Qed.
Print Assumptions C199_failing_refuted.
Theorem C199_grown_refuted : exists size chunks, (size < List.length (concat chunks))%nat /\
  ReadFile nat natFloat (Some (size, {| st_chunks := chunks; st_end := EndOfFile |})) [0]%Z [] = Ok ([[1; 23]]%Z, []) /\
  Parse nat natFloat (concat chunks) [0]%Z [] = Ok ([[1; 234]]%Z, []).
Proof. exists 4, [lit "1" ++ [nl]; lit "234"]. split; [cbn; lia|]. split; reflexivity. Qed.
Print Assumptions C199_grown_refuted.

Example C199_nonvacuous : exists ls rows, let chunks := [lit "# x" ++ [nl] ++ lit "1 2"; lit "0" ++ [nl] ++ lit "3 4"] in
  lines_of (concat chunks) ls /\ data_rows ls rows /\ ReadFile nat natFloat (Some (12, {| st_chunks := chunks; st_end := EndOfFile |})) [1; 0]%Z [] = Ok ([[20; 4]; [1; 3]]%Z, []) /\
  List.length (concat chunks) = 12.
Proof.
  destruct (C08_every_text_has_rows (concat [lit "# x" ++ [nl] ++ lit "1 2"; lit "0" ++ [nl] ++ lit "3 4"])) as (ls & rows & L & D). exists ls, rows. split; [exact L|]. split; [exact D|]. split; reflexivity.
Qed.
