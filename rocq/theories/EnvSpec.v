(** * Specification vocabulary for the snapshot file names (independent of EnvModel's functions;
      only its data types are used). *)
From Verif Require Import GoBase EnvModel.
From Coq Require Import Sorting.Sorted.
Local Open Scope nat_scope.
Local Open Scope list_scope.

(** [meaning_block m k]: the format meaning [m] refers to block range number [k]: "Block" is
    range 0 and "Block<k>" is range k. *)
Inductive meaning_block : bytes -> nat -> Prop :=
| mb_plain : meaning_block (lit "Block") 0
| mb_num s k : atoi s = Some (Z.of_nat k) -> meaning_block (lit "Block" ++ s) k.

(** [blank s]: the line consists of spaces only. *)
Definition blank (s : bytes) : Prop := forall a, In a s -> a = sp.

(** [trimmed s t]: [t] is [s] without the spaces at both ends. *)
Definition trimmed (s t : bytes) : Prop :=
  exists n m, s = repeat sp n ++ t ++ repeat sp m /\
    (forall a t', t = a :: t' -> a <> sp) /\ (forall a t', t = t' ++ [a] -> a <> sp).

(** [scale_factors text l]: [l] lists the non-blank lines of [text], in order, trimmed. *)
Inductive scale_factors : list bytes -> list bytes -> Prop :=
| sf_nil : scale_factors [] []
| sf_blank s ls l : blank s -> scale_factors ls l -> scale_factors (s :: ls) l
| sf_line s ls t l : ~ blank s -> trimmed s t -> scale_factors ls l -> scale_factors (s :: ls) (t :: l).

(** [text_lines text ls]: [ls] are the lines of [text]: joining them with newlines gives the text, and
    no line contains a newline. *)
Definition text_lines (text : bytes) (ls : list bytes) : Prop :=
  join [nl] ls = text /\ ls <> [] /\ forall l, In l ls -> ~ In nl l.

(** [value_ok info snap m v]: the value [v] is a possible value of the format argument of meaning [m]
    for snapshot [snap]. *)
Inductive value_ok (info : pinfo) (snap : Z) : bytes -> arg -> Prop :=
| vo_snap : value_ok info snap (lit "Snapshot") (AInt snap)
| vo_scale text ls l s :
    scaleFactorFile info = Some text -> text_lines text ls -> scale_factors ls l ->
    nth_error l (Z.to_nat (snap - snapMin info)) = Some s ->
    value_ok info snap (lit "ScaleFactor") (AStr s)
| vo_block m k lo hi b :
    meaning_block m k -> nth_error (blockMins info) k = Some lo -> nth_error (blockMaxes info) k = Some hi ->
    (lo <= b <= hi)%Z ->
    value_ok info snap m (AInt b).

(** A meaning that changes with the snapshot only. *)
Definition per_snapshot (m : bytes) : Prop := m = lit "Snapshot" \/ m = lit "ScaleFactor".

(** [row_before lt r1 r2]: [r1] comes before [r2] when the first columns vary fastest: they differ last at
    column j, where r1's value is smaller. *)
Definition arg_lt (a b : arg) : Prop :=
  match a, b with AInt x, AInt y => (x < y)%Z | _, _ => False end.

Definition row_before (r1 r2 : list arg) : Prop :=
  exists j a b, nth_error r1 j = Some a /\ nth_error r2 j = Some b /\ arg_lt a b /\
    forall j', j < j' -> nth_error r1 j' = nth_error r2 j'.

(** Every listed row precedes all the later ones. *)
Definition in_order (rows : list (list arg)) : Prop := StronglySorted row_before rows.

(** A meaning GetColumn understands. *)
Definition legal_meaning (info : pinfo) (m : bytes) : Prop :=
  (m = lit "Snapshot" /\ (snapMin info <= snapMax info + 1)%Z) \/
  (m = lit "ScaleFactor" /\ exists text ls l, scaleFactorFile info = Some text /\ text_lines text ls /\
      scale_factors ls l /\ Z.of_nat (List.length l) = (snapMax info - snapMin info + 1)%Z) \/
  (exists k lo hi, meaning_block m k /\ nth_error (blockMins info) k = Some lo /\
      nth_error (blockMaxes info) k = Some hi /\ (lo <= hi + 1)%Z).

(** The snapshots for which the catalogue must have files: the whole range if some format argument
    depends on the snapshot, and just the first one if none does. *)
Definition covered (info : pinfo) (snap : Z) : Prop :=
  ((exists m, In m (meanings info) /\ per_snapshot m) /\ (snapMin info <= snap <= snapMax info)%Z) \/
  ((forall m, In m (meanings info) -> ~ per_snapshot m) /\ snap = snapMin info).

(** ** Interleaving of arbitrary columns *)

(** [is_row cols aligned s row]: in every column, [row] has the column's value number [s] if the column
    is snapshot-aligned, and one of the column's values if not. *)
Definition is_row (cols : list (list arg)) (aligned : list bool) (s : nat) (row : list arg) : Prop :=
  List.length row = List.length cols /\
  forall j c al v, nth_error cols j = Some c -> nth_error aligned j = Some al -> nth_error row j = Some v ->
    if al then nth_error c s = Some v else In v c.

(** The number of combinations of the values of the columns that are not snapshot-aligned. *)
Fixpoint combinations (cols : list (list arg)) (aligned : list bool) : nat :=
  match cols, aligned with
  | c :: cols', al :: aligned' => (if al then 1 else List.length c) * combinations cols' aligned'
  | _, _ => 1
  end.

(** All the rows of snapshot [s], the first unaligned column varying fastest. *)
Fixpoint combos (cols : list (list arg)) (aligned : list bool) (s : nat) : list (list arg) :=
  match cols, aligned with
  | c :: cols', al :: aligned' =>
      if al then map (fun rest => nth s c ANil :: rest) (combos cols' aligned' s)
      else flat_map (fun rest => map (fun v => v :: rest) c) (combos cols' aligned' s)
  | _, _ => [[]]
  end.
