(** * What a config file means, stated without the parser. *)
From Verif Require Import GoBase GoBaseFacts ConfigModel.
Local Open Scope list_scope.

(** No leading and no trailing space. *)
Definition trimmed (s : bytes) : Prop := hd_error s <> Some sp /\ hd_error (rev s) <> Some sp.

(** Nothing, or a '#' and anything. *)
Definition comment (s : bytes) : Prop := s = [] \/ exists r, s = "#"%char :: r.

(** Line [l] carries the code [s], surrounded by spaces and followed by an optional comment. *)
Definition code_line (l s : bytes) : Prop :=
  exists a b cm, l = repeat sp a ++ s ++ repeat sp b ++ cm /\ comment cm /\ ~ In "#"%char s /\ trimmed s.

Definition blank_line (l : bytes) : Prop := code_line l [].
Definition header_line (name l : bytes) : Prop := code_line l (lit "[" ++ name ++ lit "]").
Definition assign_line (l n v : bytes) : Prop :=
  exists b c, code_line l (n ++ repeat sp b ++ lit "=" ++ repeat sp c ++ v)
              /\ n <> [] /\ ~ In "="%char n /\ trimmed n /\ trimmed v.

(** The lines of a text. *)
Definition lines_of (text : bytes) (ls : list bytes) : Prop :=
  ls <> [] /\ Forall (fun l => ~ In nl l) ls /\ text = join [nl] ls.

(** A config body: assignments (in order) and blank lines. *)
Inductive body_lines : list bytes -> list (bytes * bytes) -> Prop :=
| body_nil : body_lines [] []
| body_blank l ls al : blank_line l -> body_lines ls al -> body_lines (l :: ls) al
| body_assign l n v ls al : assign_line l n v -> body_lines ls al -> body_lines (l :: ls) ((n, v) :: al).

(** A config file: blank lines, the header, the body. *)
Inductive config_lines (name : bytes) : list bytes -> list (bytes * bytes) -> Prop :=
| conf_blank l ls al : blank_line l -> config_lines name ls al -> config_lines name (l :: ls) al
| conf_header l ls al : header_line name l -> body_lines ls al -> config_lines name (l :: ls) al.

Section Values.
Variable F : Type.
Variable parseFloat : bytes -> option F.
Variable toLower : bytes -> bytes.

(** Comma-separated list with optional spaces around items. *)
Definition item_list {A} (P : bytes -> A -> Prop) (s : bytes) (l : list A) : Prop :=
  exists items, items <> [] /\ Forall (fun i => ~ In ","%char i) items /\ s = join (lit ",") items /\
    Forall2 (fun i a => exists x y t, i = repeat sp x ++ t ++ repeat sp y /\ trimmed t /\ P t a) items l.

(** Text [s] denotes value [v] of type [t]. *)
Inductive denotes : varType -> bytes -> value F -> Prop :=
| den_int s z : go_int s z -> denotes intVar s (VInt _ z)
| den_float s f : parseFloat s = Some f -> denotes floatVar s (VFloat _ f)
| den_string s : denotes stringVar s (VString _ s)
| den_bool s b : parse_bool s = Some b -> denotes boolVar s (VBool _ b)
| den_ints s l : item_list go_int s l -> denotes intsVar s (VInts _ l)
| den_floats s l : item_list (fun t f => parseFloat t = Some f) s l -> denotes floatsVar s (VFloats _ l)
| den_strings s l : item_list (fun t u => u = t) s l -> denotes stringsVar s (VStrings _ l)
| den_bools s l : item_list (fun t b => parse_bool t = Some b) s l -> denotes boolsVar s (VBools _ l).

(** Names are compared ignoring case. *)
Definition same_name (n m : bytes) : Prop := toLower n = toLower m.

(** Every assigned name is registered. *)
Definition all_registered (vars : list regvar) (al : list (bytes * bytes)) : Prop :=
  forall n v, In (n, v) al -> exists rv, In rv vars /\ same_name n (rv_name rv).

(** No name is assigned twice. *)
Definition no_duplicates (al : list (bytes * bytes)) : Prop :=
  NoDup (map (fun p => toLower (fst p)) al).

(** Memory [st'] is [st] with exactly the assignments [al] carried out. *)
Definition assigned (vars : list regvar) (al : list (bytes * bytes)) (st st' : list (value F)) : Prop :=
  List.length st' = List.length st /\
  forall j rv, nth_error vars j = Some rv ->
    (forall n v, In (n, v) al -> same_name n (rv_name rv) ->
       exists x, denotes (rv_type rv) v x /\ nth_error st' j = Some x) /\
    ((forall n v, In (n, v) al -> ~ same_name n (rv_name rv)) -> nth_error st' j = nth_error st j).

(** Registered names are pairwise different ignoring case (true of every mode in cmd/). *)
Definition distinct_vars (vars : list regvar) : Prop := NoDup (map (fun v => toLower (rv_name v)) vars).
End Values.
