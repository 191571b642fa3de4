(** * Properties C03-C07: config files and command line flags (parse/config.go). *)
From Verif Require Import GoBase GoBaseFacts ConfigModel ConfigSpec ConfigProofs ConfigProofs2 ConfigProofs3.
Local Open Scope list_scope.

(** C03. Success of ReadConfig is exactly: the file has the grammar of a config file, every name is registered, none twice,
    and the memory afterwards is the memory before with exactly those assignments carried out. *)
Theorem C03_read_config_sets_exactly_what_is_assigned :
  forall (F : Type) (parseFloat : bytes -> option F) (toLower : bytes -> bytes)
         (text : bytes) (ls : list bytes) (cv : ConfigVars) (st st' : list (value F)),
  lines_of text ls -> List.length st = List.length (cv_vars cv) -> distinct_vars toLower (cv_vars cv) ->
  (ReadConfig F parseFloat toLower text cv st = (Nil, st') <->
   exists al, config_lines (cv_name cv) ls al /\ all_registered toLower (cv_vars cv) al
              /\ no_duplicates toLower al /\ assigned F parseFloat toLower (cv_vars cv) al st st').
Proof. exact ReadConfig_nil_iff. Qed.
Print Assumptions C03_read_config_sets_exactly_what_is_assigned.

(** C04. Every outcome is diagnosed: which line is at fault and (for every error except a conversion error) that memory is
    unchanged. *)
Theorem C04_errors_diagnosed_and_nothing_set :
  forall (F : Type) (parseFloat : bytes -> option F) (toLower : bytes -> bytes)
         (text : bytes) (ls : list bytes) (cv : ConfigVars) (st : list (value F)),
  lines_of text ls -> List.length st = List.length (cv_vars cv) -> distinct_vars toLower (cv_vars cv) ->
  let (o, st') := ReadConfig F parseFloat toLower text cv st in diagnosis F parseFloat toLower ls cv st o st'.
Proof. exact ReadConfig_diagnosis. Qed.
Print Assumptions C04_errors_diagnosed_and_nothing_set.

(** C05 *)
Theorem C05_layout_is_irrelevant :
  forall (F : Type) (parseFloat : bytes -> option F) (toLower : bytes -> bytes)
         (t1 t2 : bytes) (ls1 ls2 : list bytes) (cv : ConfigVars) (st : list (value F)),
  lines_of t1 ls1 -> lines_of t2 ls2 -> same_config toLower ls1 ls2 ->
  kind_of (fst (ReadConfig F parseFloat toLower t1 cv st)) = kind_of (fst (ReadConfig F parseFloat toLower t2 cv st))
  /\ snd (ReadConfig F parseFloat toLower t1 cv st) = snd (ReadConfig F parseFloat toLower t2 cv st).
Proof. exact ReadConfig_edit. Qed.
Print Assumptions C05_layout_is_irrelevant.

(** C06 *)
Theorem C06_flags_equal_config_lines :
  forall (F : Type) (parseFloat : bytes -> option F) (toLower : bytes -> bytes)
         (groups : list (bytes * list bytes)) (cv : ConfigVars) (st : list (value F)),
  groups <> [] -> Forall good_group groups -> ~ In nl (cv_name cv) -> ~ In "#"%char (cv_name cv) ->
  kind_of (fst (ReadFlags F parseFloat toLower (args_of groups) cv st))
    = kind_of (fst (ReadConfig F parseFloat toLower (flag_file (cv_name cv) groups) cv st))
  /\ snd (ReadFlags F parseFloat toLower (args_of groups) cv st)
    = snd (ReadConfig F parseFloat toLower (flag_file (cv_name cv) groups) cv st).
Proof. exact ReadFlags_as_config. Qed.
Print Assumptions C06_flags_equal_config_lines.

Theorem C06_flags_set_exactly_what_they_name :
  forall (F : Type) (parseFloat : bytes -> option F) (toLower : bytes -> bytes)
         (groups : list (bytes * list bytes)) (cv : ConfigVars) (st st' : list (value F)),
  groups <> [] -> Forall good_group groups ->
  List.length st = List.length (cv_vars cv) -> distinct_vars toLower (cv_vars cv) ->
  (ReadFlags F parseFloat toLower (args_of groups) cv st = (Nil, st') <->
   all_registered toLower (cv_vars cv) (groups_al groups) /\ no_duplicates toLower (groups_al groups)
   /\ assigned F parseFloat toLower (cv_vars cv) (groups_al groups) st st').
Proof. exact ReadFlags_nil_iff. Qed.
Print Assumptions C06_flags_set_exactly_what_they_name.

Theorem C06_flags_override_file_overrides_default :
  forall (F : Type) (parseFloat : bytes -> option F) (toLower : bytes -> bytes)
         (text : bytes) (ls : list bytes) (groups : list (bytes * list bytes)) (cv : ConfigVars) (st st' : list (value F)),
  lines_of text ls -> groups <> [] -> Forall good_group groups ->
  List.length st = List.length (cv_vars cv) -> distinct_vars toLower (cv_vars cv) ->
  readMode F parseFloat toLower (Some text) (args_of groups) cv st = (Nil, st') ->
  exists al, config_lines (cv_name cv) ls al /\
  forall j rv, nth_error (cv_vars cv) j = Some rv ->
    let flagged n v := In (n, v) (groups_al groups) /\ same_name toLower n (rv_name rv) in
    let filed n v := In (n, v) al /\ same_name toLower n (rv_name rv) in
    (forall n v, flagged n v -> exists x, denotes F parseFloat (rv_type rv) v x /\ nth_error st' j = Some x) /\
    ((forall n v, ~ flagged n v) -> forall n v, filed n v ->
        exists x, denotes F parseFloat (rv_type rv) v x /\ nth_error st' j = Some x) /\
    ((forall n v, ~ flagged n v) -> (forall n v, ~ filed n v) -> nth_error st' j = nth_error st j).
Proof. exact readMode_override. Qed.
Print Assumptions C06_flags_override_file_overrides_default.

(** C07 is false of the code: the error path of a failed conversion indexes the list of assigned values with the
    index of the *registered* variable. *)
Definition idLower (s : bytes) : bytes := s.
Definition noFloat (s : bytes) : option nat := None.
Definition two_vars : ConfigVars :=
  {| cv_name := lit "x"; cv_vars := [ {| rv_name := lit "A"; rv_type := intVar |};
                                      {| rv_name := lit "B"; rv_type := intVar |} ] |}.
Definition two_vals : list (value nat) := [VInt nat 1; VInt nat 2].
Definition nls : string := String (ascii_of_nat 10) EmptyString.

Theorem C07_bad_value_panics_refuted :
  exists text, fst (ReadConfig nat noFloat idLower text two_vars two_vals) = Panics.
Proof. exists (lit "[x]" ++ nl :: lit "B = q"). vm_compute. reflexivity. Qed.
Print Assumptions C07_bad_value_panics_refuted.

(** ... and with two assignments the message shows the value of the other variable. *)
Theorem C07_wrong_value_shown_refuted :
  exists text, ReadConfig nat noFloat idLower text two_vars two_vals
               = (Fail (EConvert 2 (lit "B") intVar (lit "7")), two_vals).
Proof. exists (lit "[x]" ++ nl :: lit "B = q" ++ nl :: lit "A = 7"). vm_compute. reflexivity. Qed.
Print Assumptions C07_wrong_value_shown_refuted.

Theorem C07_flag_panics_refuted :
  (exists args, fst (ReadFlags nat noFloat idLower args two_vars two_vals) = Panics /\ In (lit "--") args)
  /\ fst (ReadFlags nat noFloat idLower [lit "--B"; lit "q"] two_vars two_vals) = Panics.
Proof. split; [exists [lit "--"; lit "3"]; split; [vm_compute; reflexivity|left; reflexivity]|vm_compute; reflexivity]. Qed.
Print Assumptions C07_flag_panics_refuted.

(** What does hold: a panic can only come from a value that does not convert, of a variable registered at a position
    not smaller than the number of assignments (ReadConfig: the [Panics] case of [diagnosis] in C04), or, for flags, from a
    blank flag name.  Missing: the "never" of the full property. *)
Theorem C07_read_config_panic_only_partial :
  forall (F : Type) (parseFloat : bytes -> option F) (toLower : bytes -> bytes)
         (text : bytes) (ls : list bytes) (cv : ConfigVars) (st st' : list (value F)),
  lines_of text ls -> List.length st = List.length (cv_vars cv) -> distinct_vars toLower (cv_vars cv) ->
  ReadConfig F parseFloat toLower text cv st = (Panics, st') ->
  exists al l n v rv j, config_lines (cv_name cv) ls al /\ In l ls /\ assign_line l n v /\ In (n, v) al
       /\ nth_error (cv_vars cv) j = Some rv /\ same_name toLower n (rv_name rv)
       /\ (forall x, ~ denotes F parseFloat (rv_type rv) v x) /\ List.length al <= j.
Proof.
  intros F pf lo text ls cv st st' H1 H2 H3 H4.
  pose proof (ReadConfig_diagnosis F pf lo text ls cv st H1 H2 H3) as X. rewrite H4 in X. exact X.
Qed.
Print Assumptions C07_read_config_panic_only_partial.

Theorem C07_read_flags_panic_only_partial :
  forall (F : Type) (parseFloat : bytes -> option F) (toLower : bytes -> bytes)
         (args : list bytes) (cv : ConfigVars) (st st' : list (value F)),
  List.length st = List.length (cv_vars cv) ->
  ReadFlags F parseFloat toLower args cv st = (Panics, st') ->
  (exists a, In a args /\ isFlag a = true /\ trim sp (flagVarName a) = [])
  \/ (exists n v rv j, nth_error (cv_vars cv) j = Some rv /\ same_name toLower n (rv_name rv)
        /\ (forall x, ~ denotes F parseFloat (rv_type rv) v x)
        /\ List.length (filter isFlag args) <= j).
Proof. exact ReadFlags_panic_only. Qed.
Print Assumptions C07_read_flags_panic_only_partial.

(** Conversion failure is not atomic: earlier assignments of the same file have already been stored. *)
Theorem C07_failed_read_leaves_partial_state_refuted :
  exists text st', ReadConfig nat noFloat idLower text two_vars two_vals
               = (Fail (EConvert 3 (lit "A") intVar (lit "5")), st') /\ st' <> two_vals.
Proof.
  exists (lit "[x]" ++ nl :: lit "B = 5" ++ nl :: lit "A = q"). eexists. split; [vm_compute; reflexivity|].
  vm_compute. discriminate.
Qed.
Print Assumptions C07_failed_read_leaves_partial_state_refuted.

(** ** Non-vacuity *)
Definition asciiLower (s : bytes) : bytes :=
  map (fun c => let n := nat_of_ascii c in if (65 <=? n) && (n <=? 90) then ascii_of_nat (n + 32) else c) s.

Definition cat_vars : ConfigVars :=
  {| cv_name := lit "cat_info";
     cv_vars := [ {| rv_name := lit "CatName"; rv_type := stringVar |};
                  {| rv_name := lit "FurColors"; rv_type := stringsVar |};
                  {| rv_name := lit "Paws"; rv_type := intVar |};
                  {| rv_name := lit "Tails"; rv_type := intsVar |} ] |}.
Definition cat_defaults : list (value nat) :=
  [VString nat []; VStrings nat []; VInt nat 4; VInts nat []].
Definition cat_text : bytes :=
  lit "# Title" ++ nl :: lit "  [cat_info] # ok" ++ nl :: nl :: lit " catname=  Bob  # the cat" ++ nl ::
  lit "FurColors = White , Black" ++ nl :: lit "TAILS = 1, -2,3".

Example C03_nonvacuous :
  ReadConfig nat noFloat asciiLower cat_text cat_vars cat_defaults
  = (Nil, [VString nat (lit "Bob"); VStrings nat [lit "White"; lit "Black"]; VInt nat 4; VInts nat [1; -2; 3]%Z])
  /\ distinct_vars asciiLower (cv_vars cat_vars)
  /\ List.length cat_defaults = List.length (cv_vars cat_vars).
Proof.
  split; [vm_compute; reflexivity|]. split; [|reflexivity].
  unfold distinct_vars. cbn. repeat constructor; cbn; intuition discriminate.
Qed.

Example C06_nonvacuous :
  args_of [(lit "Paws", [lit "3"]); (lit "tails", [lit "1"; lit "-2"])]
    = [lit "--Paws"; lit "3"; lit "--tails"; lit "1"; lit "-2"]
  /\ good_group (lit "tails", [lit "1"; lit "-2"])
  /\ readMode nat noFloat asciiLower (Some cat_text)
       (args_of [(lit "Paws", [lit "3"]); (lit "tails", [lit "1"; lit "-2"])]) cat_vars cat_defaults
     = (Nil, [VString nat (lit "Bob"); VStrings nat [lit "White"; lit "Black"]; VInt nat 3; VInts nat [1; -2]%Z]).
Proof.
  split; [vm_compute; reflexivity|]. split; [|vm_compute; reflexivity].
  unfold good_group, clean. cbn [fst snd].
  repeat split; try (vm_compute; intuition discriminate).
  - repeat constructor; vm_compute; intuition discriminate.
  - exists "t"%char. split; [left; reflexivity|discriminate].
  - repeat constructor.
Qed.

Example C05_nonvacuous : same_config asciiLower
   [lit "[x]"; lit "A = 3"] [lit "[x]"; lit "# note"; lit "  a=3 # three"].
Proof.
  eapply Relation_Operators.rst_trans.
  - apply Relation_Operators.rst_step. apply (ed_blank asciiLower [lit "[x]"] (lit "# note") [lit "A = 3"]).
    apply code_line_iff. vm_compute. reflexivity.
  - apply Relation_Operators.rst_step.
    apply (ed_assign asciiLower [lit "[x]"; lit "# note"] (lit "A = 3") (lit "  a=3 # three") (lit "A") (lit "a") (lit "3") []).
    + apply assign_line_iff. vm_compute. reflexivity.
    + apply assign_line_iff. vm_compute. reflexivity.
    + vm_compute. reflexivity.
    + intros H. inversion H as [|? ? H1 _]; subst. apply code_line_iff in H1. vm_compute in H1. discriminate.
Qed.

(** Each error kind occurs. *)
Example C04_nonvacuous :
  map (fun t => kind_of (fst (ReadConfig nat noFloat asciiLower t two_vars two_vals)))
    [lit "[y]"; lit "[x]" ++ nl :: lit "A"; lit "[x]" ++ nl :: lit "C = 1";
     lit "[x]" ++ nl :: lit "A = 1" ++ nl :: lit "a = 2"; lit "[x]" ++ nl :: lit "A = z"]
  = [KHeader; KAssign; KUnknown; KDuplicate; KConvert].
Proof. vm_compute. reflexivity. Qed.
