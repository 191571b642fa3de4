(** * Model of parse/config.go (no proofs).

    [F] is the type of float64 values, [parseFloat] is strconv.ParseFloat(s, 64) ([None] = error) and [toLower] is
    strings.ToLower; all three are parameters, so every theorem holds for whatever those library calls do.
    Simplification: the variables registered in a ConfigVars live at distinct addresses, so the memory they
    occupy is a list of values parallel to the list of registrations. *)
From Verif Require Import GoBase.
Local Open Scope list_scope.

(** parse/config.go:69-80 *)
Inductive varType := intVar | intsVar | floatVar | floatsVar | stringVar | stringsVar | boolVar | boolsVar.

(** parse/config.go:106-111: a registered variable (name, type); ConfigVars itself is [name] plus a list of these. *)
Record regvar := { rv_name : bytes; rv_type : varType }.
Record ConfigVars := { cv_name : bytes; cv_vars : list regvar }.

Section Config.
Variable F : Type.
Variable parseFloat : bytes -> option F.
Variable toLower : bytes -> bytes.

Inductive value :=
| VInt (z : Z) | VInts (zs : list Z)
| VFloat (f : F) | VFloats (fs : list F)
| VString (s : bytes) | VStrings (ss : list bytes)
| VBool (b : bool) | VBools (bs : list bool).

(** parse/config.go:153-159 strToList *)
Definition strToList (a : bytes) : list bytes := map (trim sp) (split_byte ","%char a).

(** The loop shared by intsConv (165-172), floatsConv (180-187) and boolsConv (206-213): append converted
    tokens until one fails; the partial list stays in *ptr. *)
Fixpoint convList {A} (conv : bytes -> option A) (toks : list bytes) : bool * list A :=
  match toks with
  | [] => (true, [])
  | t :: ts => match conv t with
               | None => (false, [])
               | Some a => let '(ok, l) := convList conv ts in (ok, a :: l)
               end
  end.

(** parse/config.go:113-215, the eight conversionFuncs: returns ok and the value left in *ptr. *)
Definition convert (t : varType) (old : value) (s : bytes) : bool * value :=
  match t with
  | intVar => match atoi s with Some i => (true, VInt i) | None => (false, old) end
  | floatVar => match parseFloat s with Some f => (true, VFloat f) | None => (false, old) end
  | stringVar => (true, VString (trim sp s))
  | boolVar => match parse_bool s with Some b => (true, VBool b) | None => (false, old) end
  | intsVar => let '(ok, l) := convList atoi (strToList s) in (ok, VInts l)
  | floatsVar => let '(ok, l) := convList parseFloat (strToList s) in (ok, VFloats l)
  | stringsVar => (true, VStrings (strToList s))
  | boolsVar => let '(ok, l) := convList parse_bool (strToList s) in (ok, VBools l)
  end.

(** Error returns of ReadConfig / ReadFlags with the data their messages show. *)
Inductive error :=
| EHeader                                           (* 300-305 *)
| EAssign (line : nat)                              (* 311-317 *)
| EUnknown (line : nat) (name : bytes)              (* 319-325 *)
| EDuplicate (line1 line2 : nat) (name : bytes)     (* 327-333 *)
| EConvert (line : nat) (var : bytes) (ty : varType) (shown : bytes)  (* 337-356 *)
| EFlagEquals (arg : bytes)                         (* 363-371 *)
| EFlagMissing (arg : bytes)                        (* 378-380 *)
| EFlagNoValue (name : bytes)                       (* 399-406 *)
| EFlagUnknown (name : bytes)                       (* 422-426 *)
| EFlagDuplicate (name : bytes)                     (* 428-432 *)
| EFlagConvert (var : bytes) (ty : varType) (shown : bytes).  (* 435-453 *)

Inductive outcome := Nil | Fail (e : error) | Panics.

(** parse/config.go:469-475: cut a line at its first '#'. *)
Definition cutComment (l : bytes) : bytes :=
  match index_byte "#"%char l with
  | None => l
  | Some i => firstn i l
  end.

(** parse/config.go:464-488 removeComments; [i] is the index of the head of [lines]. Pairs the kept line
    with its line index. *)
Fixpoint removeComments (i : nat) (lines : list bytes) : list (bytes * nat) :=
  match lines with
  | [] => []
  | l :: ls =>
      let line := trim sp (cutComment l) in
      match line with
      | [] => removeComments (S i) ls
      | _ => (line, i) :: removeComments (S i) ls
      end
  end.

(** parse/config.go:490-509 associationList; [inr i] is the "errLine = i" return. *)
Fixpoint associationList (i : nat) (lines : list bytes) : list (bytes * bytes) + nat :=
  match lines with
  | [] => inl []
  | l :: ls =>
      match index_byte "="%char l with
      | None => inr i
      | Some eq =>
          let name := trim sp (firstn eq l) in
          let val := if eq <? List.length l - 1 then skipn (eq + 1) l else [] in
          match name with
          | [] => inr i
          | _ => match associationList (S i) ls with
                 | inr j => inr j
                 | inl al => inl ((name, trim sp val) :: al)
                 end
          end
      end
  end.

(** The search loops at parse/config.go:339-344, 514-520, 542-546: index of the first registered variable whose
    lower-cased name equals the lower-cased [n]; [None] = loop ran to the end. *)
Fixpoint findVar (vars : list regvar) (n : bytes) : option nat :=
  match vars with
  | [] => None
  | v :: vs => if beq (toLower (rv_name v)) (toLower n) then Some 0 else option_map S (findVar vs n)
  end.

(** parse/config.go:511-526 checkValidNames ([None] = -1). *)
Fixpoint checkValidNames (i : nat) (names : list bytes) (vars : list regvar) : option nat :=
  match names with
  | [] => None
  | n :: ns => match findVar vars n with
               | None => Some i
               | Some _ => checkValidNames (S i) ns vars
               end
  end.

(** parse/config.go:530-534: the inner loop of checkDuplicateNames. *)
Fixpoint findSame (j : nat) (n : bytes) (names : list bytes) : option nat :=
  match names with
  | [] => None
  | m :: ms => if beq (toLower n) (toLower m) then Some j else findSame (S j) n ms
  end.

(** parse/config.go:528-537 checkDuplicateNames ([None] = (-1,-1)). *)
Fixpoint checkDuplicateNames (i : nat) (names : list bytes) : option (nat * nat) :=
  match names with
  | [] => None
  | n :: ns => match findSame (S i) n ns with
               | Some j => Some (i, j)
               | None => checkDuplicateNames (S i) ns
               end
  end.

Inductive convRes := CDone | CFail (i : nat) | CPanic.

(** parse/config.go:539-554 convertAssoc. Running off the end of conversionFuncs panics. *)
Fixpoint convertAssoc (i : nat) (al : list (bytes * bytes)) (vars : list regvar) (st : list value)
  : convRes * list value :=
  match al with
  | [] => (CDone, st)
  | (n, s) :: al' =>
      match findVar vars n with
      | None => (CPanic, st)
      | Some j =>
          match nth_error vars j, nth_error st j with
          | Some v, Some old =>
              let '(ok, new) := convert (rv_type v) old s in
              match upd st j new with
              | None => (CPanic, st)
              | Some st' => if ok then convertAssoc (S i) al' vars st' else (CFail i, st')
              end
          | _, _ => (CPanic, st)
          end
      end
  end.

(** parse/config.go:284-359 ReadConfig, after the file has been read (287-290: a read error is returned
    as it is, before anything else happens). Returns the outcome and the memory of the registered variables. *)
Definition ReadConfig (text : bytes) (cv : ConfigVars) (st : list value) : outcome * list value :=
  let kept := removeComments 0 (split_byte nl text) in
  let lineNum i := match nth_error kept i with Some (_, k) => S k | None => 0 end in
  match kept with
  | [] => (Fail EHeader, st)
  | (l0, _) :: body =>
      if negb (beq l0 (lit "[" ++ cv_name cv ++ lit "]")) then (Fail EHeader, st)
      else
        match associationList 0 (map fst body) with
        | inr i => (Fail (EAssign (lineNum (S i))), st)
        | inl al =>
            let names := map fst al in
            match checkValidNames 0 names (cv_vars cv) with
            | Some i => (Fail (EUnknown (lineNum (S i)) (nth i names [])), st)
            | None =>
                match checkDuplicateNames 0 names with
                | Some (i, j) =>
                    (Fail (EDuplicate (lineNum (S i)) (lineNum (S j)) (nth i names [])), st)
                | None =>
                    match convertAssoc 0 al (cv_vars cv) st with
                    | (CDone, st') => (Nil, st')
                    | (CPanic, st') => (Panics, st')
                    | (CFail i, st') =>
                        (* 337-356: j indexes vars, but the message uses vals[j] *)
                        match findVar (cv_vars cv) (nth i names []) with
                        | None => (Panics, st')
                        | Some j =>
                            match nth_error (cv_vars cv) j, nth_error (map snd al) j with
                            | Some v, Some shown =>
                                (Fail (EConvert (lineNum (S i)) (rv_name v) (rv_type v) shown), st')
                            | _, _ => (Panics, st')
                            end
                        end
                    end
                end
            end
        end
  end.

(** parse/config.go:373-376 *)
Definition isFlag (a : bytes) : bool :=
  match a with
  | c1 :: c2 :: _ => Ascii.eqb c1 "-"%char && Ascii.eqb c2 "-"%char
  | _ => false
  end.

(** parse/config.go:458-460 *)
Definition flagVarName (f : bytes) : bytes := trim_left "-"%char f.

(** parse/config.go:382-397: group arguments; [curr] is currValue, [name] the flag being collected. *)
Fixpoint groupFlags (name : bytes) (curr : list bytes) (args : list bytes) : list (bytes * bytes) :=
  match args with
  | [] => [(name, join (lit ",") curr)]
  | a :: rest =>
      if isFlag a then (name, join (lit ",") curr) :: groupFlags (flagVarName a) [] rest
      else groupFlags name (curr ++ [a]) rest
  end.

Definition hasEquals (a : bytes) : bool := existsb (Ascii.eqb "="%char) a.

(** parse/config.go:361-456 ReadFlags. *)
Definition ReadFlags (args : list bytes) (cv : ConfigVars) (st : list value) : outcome * list value :=
  match args with
  | [] => (Nil, st)
  | a0 :: rest =>
      match find hasEquals args with
      | Some a => (Fail (EFlagEquals a), st)
      | None =>
          if negb (isFlag a0) then (Fail (EFlagMissing a0), st)
          else
            let groups := groupFlags (flagVarName a0) [] rest in
            match find (fun g => beq (snd g) []) groups with
            | Some g => (Fail (EFlagNoValue (fst g)), st)
            | None =>
                let lines := map (fun g => fst g ++ lit "=" ++ snd g) groups in
                match associationList 0 lines with
                | inr _ => (Panics, st)
                | inl al =>
                    let names := map fst al in
                    match checkValidNames 0 names (cv_vars cv) with
                    | Some i => (Fail (EFlagUnknown (nth i names [])), st)
                    | None =>
                        match checkDuplicateNames 0 names with
                        | Some (i, _) => (Fail (EFlagDuplicate (nth i names [])), st)
                        | None =>
                            match convertAssoc 0 al (cv_vars cv) st with
                            | (CDone, st') => (Nil, st')
                            | (CPanic, st') => (Panics, st')
                            | (CFail i, st') =>
                                match findVar (cv_vars cv) (nth i names []) with
                                | None => (Panics, st')
                                | Some j =>
                                    match nth_error (cv_vars cv) j, nth_error (map snd al) j with
                                    | Some v, Some shown =>
                                        (Fail (EFlagConvert (rv_name v) (rv_type v) shown), st')
                                    | _, _ => (Panics, st')
                                    end
                                end
                            end
                        end
                    end
                end
            end
      end
  end.

(** The pattern of every mode's ReadConfig, e.g. cmd/id.go, cmd/tree.go: register the variables (which writes
    the defaults), then `if fname == "" { if len(flags)==0 {return nil}; ReadFlags } else { ReadConfig; ReadFlags }`. *)
Definition readMode (file : option bytes) (flags : list bytes) (cv : ConfigVars) (defaults : list value)
  : outcome * list value :=
  match file with
  | None => match flags with [] => (Nil, defaults) | _ => ReadFlags flags cv defaults end
  | Some text =>
      match ReadConfig text cv defaults with
      | (Nil, st) => ReadFlags flags cv st
      | r => r
      end
  end.
End Config.
