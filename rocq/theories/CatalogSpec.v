(** * What a catalog text means, stated without the parser. *)
From Verif Require Import GoBase GoBaseFacts ConfigSpec.
Local Open Scope list_scope.

(** Line [l] consists of the words [ws], separated (and optionally surrounded) by runs of spaces. *)
Inductive words_of : bytes -> list bytes -> Prop :=
| wo_blank n : words_of (repeat sp n) []
| wo_last n w : w <> [] -> ~ In sp w -> words_of (repeat sp n ++ w) [w]
| wo_more n w r ws : w <> [] -> ~ In sp w -> words_of r ws ->
                     words_of (repeat sp n ++ w ++ sp :: r) (w :: ws).

(** The words of a line once its comment is removed. *)
Definition line_words (l : bytes) (ws : list bytes) : Prop :=
  exists code cm, l = code ++ cm /\ comment cm /\ ~ In "#"%char code /\ words_of code ws.

(** The rows of a catalog: the word lists of the lines that are not blank. *)
Inductive data_rows : list bytes -> list (list bytes) -> Prop :=
| dr_nil : data_rows [] []
| dr_blank l ls rows : line_words l [] -> data_rows ls rows -> data_rows (l :: ls) rows
| dr_row l ls ws rows : line_words l ws -> ws <> [] -> data_rows ls rows -> data_rows (l :: ls) (ws :: rows).

(** Column [idx] of the rows, converted with [conv], is [col]. *)
Definition column_is {A} (conv : bytes -> A -> Prop) (rows : list (list bytes)) (idx : Z) (col : list A) : Prop :=
  Forall2 (fun row v => exists w, (0 <= idx)%Z /\ nth_error row (Z.to_nat idx) = Some w /\ conv w v) rows col.

(** The rows form a rectangular table whose columns [ic] read as integers are [ics] and columns [fc] as floats [fcs]. *)
Definition table_is {F} (parseFloat : bytes -> option F) (rows : list (list bytes)) (ic fc : list Z)
           (ics : list (list Z)) (fcs : list (list F)) : Prop :=
  (exists w, Forall (fun r => List.length r = w) rows) /\
  Forall2 (column_is go_int rows) ic ics /\
  Forall2 (column_is (fun s f => parseFloat s = Some f) rows) fc fcs.

(** No control white space (tab, \v, \f, \r): the only white space is the space. *)
Definition plain (s : bytes) : Prop := Forall (fun c => ~ (9 <= nat_of_ascii c <= 13)) s.

(** The words of the first data row contain no white space other than spaces. *)
Definition plain_first (rows : list (list bytes)) : Prop :=
  match rows with [] => True | r :: _ => Forall plain r end.
