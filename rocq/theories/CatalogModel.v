(** * Model of cmd/catalog/catalog.go (no proofs).

    [F] is float64, [parseFloat] is strconv.ParseFloat(s,64), [fmtFloat] is fmt.Sprintf("%.6g", x). *)
From Verif Require Import GoBase.
Local Open Scope list_scope.

(** Go slice read xs[i] with a possibly negative index; [None] = index out of range. *)
Definition nthZ {A} (l : list A) (i : Z) : option A :=
  if (i <? 0)%Z then None else nth_error l (Z.to_nat i).

(** catalog.go:199-202: counts of separators and comment bytes. *)
Definition count_byte (c : ascii) (s : bytes) : nat := List.length (filter (fun a => Ascii.eqb a c) s).

(** catalog.go:206-213: the slicing loop; [n] separators left to consume, [idx] as in the code. *)
Fixpoint splitLoop (n idx : nat) (data : bytes) (sep : ascii) : list bytes :=
  match n with
  | O => [skipn idx data]
  | S n' =>
      let data' := skipn idx data in
      match index_byte sep data' with
      | None => []                   (* unreachable: data' still holds n separators *)
      | Some i => firstn i data' :: splitLoop n' (S i) data' sep
      end
  end.

(** catalog.go:197-216 split *)
Definition split (data : bytes) (sep comm : ascii) : list bytes * nat :=
  (splitLoop (count_byte sep data) 0 data sep, count_byte comm data).

(** catalog.go:223-238: the loop of uncomment, with its early exit when the counter reaches zero. *)
Fixpoint uncommentLoop (lines : list bytes) (comm : ascii) (nComm : Z) : list bytes :=
  match lines with
  | [] => []
  | line :: rest =>
      match index_byte comm line with
      | None => line :: uncommentLoop rest comm nComm
      | Some i =>
          let n := (1 + Z.of_nat (count_byte comm (skipn (i + 1) line)))%Z in
          let nComm' := (nComm - n)%Z in
          if (nComm' =? 0)%Z then firstn i line :: rest
          else firstn i line :: uncommentLoop rest comm nComm'
      end
  end.

(** catalog.go:220-241 uncomment *)
Definition uncomment (lines : list bytes) (comm : ascii) (nComm : nat) : list bytes :=
  if Nat.eqb nComm 0 then lines else uncommentLoop lines comm (Z.of_nat nComm).

(** catalog.go:244-259 trim: keep the lines that contain a byte other than [sep]. *)
Definition trimLines (lines : list bytes) (sep : ascii) : list bytes :=
  filter (fun l => existsb (fun c => negb (Ascii.eqb c sep)) l) lines.

(** Go stdlib bytes.Fields on ASCII data: maximal runs of bytes other than \t \n \v \f \r and space. (Simplification: the Unicode
    white space that Fields also recognises in non-ASCII data is not modelled; such bytes count as field bytes.) *)
Definition is_space (c : ascii) : bool :=
  let n := nat_of_ascii c in Nat.eqb n 32 || ((9 <=? n) && (n <=? 13)).

Fixpoint nFieldsFrom (inField : bool) (s : bytes) : nat :=
  match s with
  | [] => 0
  | c :: s' => if is_space c then nFieldsFrom false s'
               else (if inField then 0 else 1) + nFieldsFrom true s'
  end.
Definition nFields (s : bytes) : nat := nFieldsFrom false s.

(** catalog.go:331-337: number of fields separated by [sep]. *)
Fixpoint countFields (sep : ascii) (inField : bool) (data : bytes) : nat :=
  match data with
  | [] => 0
  | c :: data' =>
      let inField' := negb (Ascii.eqb sep c) in
      (if inField' && negb inField then 1 else 0) + countFields sep inField' data'
  end.

(** catalog.go:342-360: [rest] is data[i:]; [start] is fieldStart (None = -1). Result None = index out of range of buf. *)
Fixpoint fieldsLoop (data : bytes) (sep : ascii) (n : nat)
         (i na : nat) (start : option nat) (buf : list bytes) (rest : bytes) : option (list bytes * nat) :=
  let finish (_ : unit) :=
    match start with
    | None => Some (buf, na)
    | Some s => match upd buf na (skipn s data) with
                | None => None
                | Some buf' => Some (buf', S na)
                end
    end in
  match rest with
  | [] => finish tt
  | c :: rest' =>
      if na <? n then
        match start with
        | None => if negb (Ascii.eqb c sep) then fieldsLoop data sep n (S i) na (Some i) buf rest'
                  else fieldsLoop data sep n (S i) na None buf rest'
        | Some s =>
            if Ascii.eqb c sep then
              match upd buf na (skipn s (firstn i data)) with
              | None => None
              | Some buf' => fieldsLoop data sep n (S i) (S na) None buf' rest'
              end
            else fieldsLoop data sep n (S i) na (Some s) buf rest'
        end
      else finish tt
  end.

(** catalog.go:330-363 fields; None = panic. The contents left in buf are returned as well (it is reused). *)
Definition fields (data : bytes) (sep : ascii) (buf : list bytes) : option (list bytes * list bytes) :=
  match fieldsLoop data sep (countFields sep false data) 0 0 None buf data with
  | None => None
  | Some (buf', na) => Some (firstn na buf', buf')
  end.

Section Cat.
Variable F : Type.
Variable parseFloat : bytes -> option F.
Variable fmtFloat : F -> bytes.

(** catalog.go:311-322: convert the requested words of one line. *)
Fixpoint convWords {A} (conv : bytes -> option A) (words : list bytes) (idxs : list Z) : res (list A) :=
  match idxs with
  | [] => Ok []
  | j :: js =>
      match nthZ words j with
      | None => Panic
      | Some w => match conv w with
                  | None => Err
                  | Some a => bindr (convWords conv words js) (fun l => Ok (a :: l))
                  end
      end
  end.

(** catalog.go:297-323: the loop over lines. Rows are collected; the code stores entry i of column j at icols[j][i]. *)
Fixpoint parseRows (lines : list bytes) (sep : ascii) (buf : list bytes) (icolIdxs fcolIdxs : list Z)
  : res (list (list Z * list F)) :=
  match lines with
  | [] => Ok []
  | line :: rest =>
      match fields line sep buf with
      | None => Panic
      | Some (words, buf') =>
          if negb (Nat.eqb (List.length words) (List.length buf)) then Err
          else bindr (convWords atoi words icolIdxs) (fun is_ =>
               bindr (convWords parseFloat words fcolIdxs) (fun fs =>
               bindr (parseRows rest sep buf' icolIdxs fcolIdxs) (fun rows => Ok ((is_, fs) :: rows))))
      end
  end.

(** column j of a list of rows *)
Definition column {A} (j : nat) (rows : list (list A)) : list A :=
  flat_map (fun r => match nth_error r j with Some a => [a] | None => [] end) rows.

(** catalog.go:275-281 *)
Definition maxCol (idxs : list Z) : Z := fold_left Z.max idxs (-1)%Z.

(** catalog.go:261-326 parse *)
Definition parse (lines : list bytes) (sep : ascii) (icolIdxs fcolIdxs : list Z)
  : res (list (list Z) * list (list F)) :=
  match lines with
  | [] => Ok (repeat [] (List.length icolIdxs), repeat [] (List.length fcolIdxs))
  | l0 :: _ =>
      let buf := repeat ([] : bytes) (nFields l0) in
      if (maxCol (icolIdxs ++ fcolIdxs) >=? Z.of_nat (List.length buf))%Z then Err
      else bindr (parseRows lines sep buf icolIdxs fcolIdxs) (fun rows =>
           Ok (map (fun j => column j (map fst rows)) (seq 0 (List.length icolIdxs)),
               map (fun j => column j (map snd rows)) (seq 0 (List.length fcolIdxs))))
  end.

(** catalog.go:143-150 Parse *)
Definition Parse (data : bytes) (icolIdxs fcolIdxs : list Z) : res (list (list Z) * list (list F)) :=
  let '(lines, nComm) := split data nl "#"%char in
  let lines := uncomment lines "#"%char nComm in
  let lines := trimLines lines sp in
  parse lines sp icolIdxs fcolIdxs.

(** fmt's "%*d" / "%*.6g": pad on the left with spaces to the given width. *)
Definition padLeft (w : nat) (s : bytes) : bytes := repeat sp (w - List.length s) ++ s.

(** catalog.go:108-140 formatIntCol / formatFloatCol for the rendering [fmt]; None = panic on col[0] of an empty column. *)
Definition formatCol {A} (fmt : A -> bytes) (col : list A) : option (list bytes) :=
  match col with
  | [] => None
  | a :: col' =>
      let width := fold_left (fun w x => if w <? List.length (fmt x) then List.length (fmt x) else w)
                             col' (List.length (fmt a)) in
      Some (map (fun x => padLeft width (fmt x)) col)
  end.

(** catalog.go:62-79: format every column, checking heights; [h] = None is height == -1. *)
Fixpoint formatCols1 {A} (fmt : A -> bytes) (h : option nat) (cols : list (list A))
  : option (list (list bytes) * option nat) :=
  match cols with
  | [] => Some ([], h)
  | c :: cs =>
      match formatCol fmt c with
      | None => None
      | Some fc =>
          let h' := match h with None => Some (List.length c) | Some _ => h end in
          match h with
          | Some k => if Nat.eqb k (List.length c) then
                        match formatCols1 fmt h' cs with
                        | Some (fcs, h2) => Some (fc :: fcs, h2) | None => None end
                      else None
          | None => match formatCols1 fmt h' cs with
                    | Some (fcs, h2) => Some (fc :: fcs, h2) | None => None end
          end
      end
  end.

(** catalog.go:81-93: reorder. *)
Fixpoint orderCols (cols : list (list bytes)) (order : list Z) : option (list (list bytes)) :=
  match order with
  | [] => Some []
  | idx :: rest =>
      match nthZ cols idx with
      | None => None               (* explicit panic if too large, index panic if negative *)
      | Some c => option_map (cons c) (orderCols cols rest)
      end
  end.

(** catalog.go:97-100: fill tokens for row i; None = tokens[j] out of range. *)
Fixpoint fillTokens (tokens : list bytes) (cols : list (list bytes)) (i j : nat) : option (list bytes) :=
  match cols with
  | [] => Some tokens
  | c :: cs =>
      match nth_error c i with
      | None => None
      | Some w => match upd tokens j w with
                  | None => None
                  | Some t => fillTokens t cs i (S j)
                  end
      end
  end.

(** catalog.go:97-103: loop over rows i, i+1, ... (k of them); tokens is reused between rows. *)
Fixpoint formatRows (tokens : list bytes) (cols : list (list bytes)) (i k : nat) : option (list bytes) :=
  match k with
  | O => Some []
  | S k' =>
      match fillTokens tokens cols i 0 with
      | None => None
      | Some t => option_map (cons (join (lit " ") t)) (formatRows t cols (S i) k')
      end
  end.

Definition hd_empty {A} (cols : list (list A)) : bool :=
  match cols with [] :: _ => true | _ => false end.

(** catalog.go:52-106 FormatCols; None = panic. *)
Definition FormatCols (intCols : list (list Z)) (floatCols : list (list F)) (order : list Z) : option (list bytes) :=
  if (Nat.eqb (List.length intCols) 0 && Nat.eqb (List.length floatCols) 0) || hd_empty intCols || hd_empty floatCols
  then Some []
  else
    match formatCols1 itoa None intCols with
    | None => None
    | Some (fi, h) =>
        match formatCols1 fmtFloat h floatCols with
        | None => None
        | Some (ff, h2) =>
            match orderCols (fi ++ ff) order with
            | None => None
            | Some oc =>
                let height := match h2 with Some k => k | None => 0 end in
                formatRows (repeat [] (List.length intCols + List.length floatCols)) oc 0 height
            end
        end
    end.

(** catalog.go:26-36 of CommentString: reorder names and sizes; None = panic. *)
Fixpoint orderNames (names : list bytes) (sizes : list Z) (order : list Z) : option (list (bytes * Z)) :=
  match order with
  | [] => Some []
  | idx :: rest =>
      if (idx >=? Z.of_nat (List.length names))%Z then None
      else match nthZ names idx, nthZ sizes idx with
           | Some nm, Some sz => option_map (cons (nm, sz)) (orderNames names sizes rest)
           | _, _ => None
           end
  end.

(** catalog.go:38-47 *)
Fixpoint labelCols (n : Z) (cols : list (bytes * Z)) : list bytes :=
  match cols with
  | [] => []
  | (nm, sz) :: rest =>
      (if (sz =? 1)%Z then nm ++ lit "(" ++ itoa n ++ lit ")"
       else nm ++ lit "(" ++ itoa n ++ lit "-" ++ itoa (n + sz - 1) ++ lit ")")
      :: labelCols (n + sz)%Z rest
  end.

(** catalog.go:14-50 CommentString. (Simplification: an order index of -1 selects the "# Column contents:" token
    for the name, but then sizes[-1] panics, as here.) *)
Definition CommentString (intNames floatNames : list bytes) (order sizes : list Z) : option bytes :=
  option_map (fun cols => join (lit " ") (lit "# Column contents:" :: labelCols 0 cols))
             (orderNames (intNames ++ floatNames) sizes order).

(** Output of a mode: shellfish.go:447-449 prints every line followed by a newline. *)
Definition printLines (lines : list bytes) : bytes := flat_map (fun l => l ++ [nl]) lines.
End Cat.
